(** Proofs about the parser (C72): declarations and files are read back. *)
From Coq Require Import ZArith List Bool String Lia.
From Verif Require Import M_Base M_Expr M_Lit M_Visit M_Parse S_Parse P_Parse P_Parse2 P_Parse3 P_Parse4 P_Parse5.
Import ListNotations.
Local Open Scope list_scope.
Open Scope Z_scope.

Definition at_tok (s : string) : list token -> Prop := fun ts => exists tl, ts = K s :: tl.
Lemma at_tok_cons s tl : at_tok s (K s :: tl). Proof. unfold at_tok; eauto. Qed.
Local Hint Resolve at_tok_cons : core.
Lemma at_closed s ts : closer s -> at_tok s ts -> closed ts.
Proof. intros C (tl & ->). now apply closed_cons. Qed.

(** A rule that is followed by a token. *)
Lemma takes_then {R A B} b n (p : parser R A) (f : A -> parser R B) a x c1 s c2 (G1 G2 : list token -> Prop) :
  takes b n p a c1 G1 -> (b = true -> forall y, quiet 0 (f y) n) -> takes b n (f a) x (K s :: c2) G2 ->
  (forall tl, G1 (K s :: tl)) -> takes b n (pbind p f) x (c1 ++ K s :: c2) G2.
Proof. intros H Q H2 W. eapply takes_bind; [exact H|exact Q|exact H2|]. intros rest _. apply W. Qed.
Lemma takes_then_g {R A B} b n (p : parser R A) (f : A -> parser R B) a x c1 s c2 (G1 G2 : list token -> Prop) :
  takes false n p a c1 G1 -> takes b n (f a) x (K s :: c2) G2 ->
  (forall tl, G1 (K s :: tl)) -> takes b n (pbind p f) x (c1 ++ K s :: c2) G2.
Proof. intros H H2 W. eapply takes_bind_g; [exact H|exact H2|]. intros rest _. apply W. Qed.

Lemma takes_cfield {R} n f : cfield_wf f -> takes true n (@choice_field R n) f (cfield_tokens f) (at_tok ";").
Proof.
  intros (W & Wc). destruct f as [m c]. unfold cfield_tokens, choice_field. cbn [pc_member pc_constraint] in *.
  eapply (takes_bind _ _ _ _ _ _ _ _ stops); [now apply takes_member| | |].
  - intros _ y. unfold constraint. apply quiet_bind0; [apply quiet_behind|]. intros. quiet0.
  - apply (takes_map true n _ (PCField m)). apply takes_behind; [exact Wc|].
    intros rest (tl & ->). split; [reflexivity|apply closed_cons; auto with closers].
  - intros rest (tl & ->). destruct c; cbn [behind app]; eexists _, _; (split; [reflexivity|cbn; tauto]).
Qed.
Lemma cfield_starts f rest : cfield_wf f -> la_member (cfield_tokens f ++ rest) = true.
Proof. intros (W & _). unfold cfield_tokens. rewrite <- app_assoc. apply member_starts, W. Qed.
Lemma takes_opt_cfield {R} n x : opt_wf cfield_wf x ->
  takes true n (opt la_member (choice_field n) : parser R (option pcfield)) x (opt_cfield_tokens x) (at_tok ";").
Proof.
  intros W. change (opt_cfield_tokens x) with (opt_tokens cfield_tokens x). apply takes_opt.
  - intros a ->. split; [now apply takes_cfield|]. intros. now apply cfield_starts.
  - intros -> rest (tl & ->). reflexivity.
Qed.
Lemma after_name t x tl : after_type t (I x :: tl).
Proof. split; [reflexivity|left; reflexivity]. Qed.
Lemma takes_function {R} b n g : fun_wf g -> takes b n (@function R n) g (fun_tokens g) any.
Proof.
  intros (Wt & We). destruct g as [t x e]. unfold fun_tokens, function. cbn [pfn_type pfn_name pfn_body app] in *. apply takes_t.
  eapply takes_bind_g; [now apply takes_type| |intros; apply after_name].
  apply takes_i. do 4 apply takes_t.
  eapply takes_then_g; [now apply takes_expr|do 2 apply takes_t; apply takes_ret|]. intros. apply closed_cons; auto with closers.
Qed.
Lemma takes_functions {R} b n gs : Forall fun_wf gs -> takes b n (@functions R n) gs (flat_map fun_tokens gs) (not_in ["function"%string]).
Proof.
  intros W. apply (takes_many b n _ _ _ _ _ any); try easy.
  - intros _. apply quiet_function.
  - intros a M. apply takes_function. eapply Forall_forall; eauto.
Qed.
Lemma takes_params {R} b n l : l <> [] -> Forall param_wf l -> takes b n (@type_params R n) l (params_tokens l) any.
Proof.
  intros N W. unfold type_params. replace (params_tokens l) with (K "(" :: separated param_tokens l ++ [K ")"]) by (destruct l; [congruence|reflexivity]).
  apply takes_t. eapply (takes_then_g _ _ _ _ _ _ _ _ [] (at_tok ")")); [|apply takes_t, takes_ret|auto].
  apply (takes_commas false n _ _ _ _ any); try easy.
  - intros [t x] M. unfold param_tokens. cbn [pp_type pp_name].
    eapply takes_bind_g; [apply takes_type|apply takes_i, takes_ret|intros; apply after_name].
    rewrite Forall_forall in W. exact (W _ M).
  - intros rest (tl & ->). split; [reflexivity|easy].
Qed.
Lemma takes_opt_params {R} b n l : Forall param_wf l -> takes b n (@opt_params R n) l (params_tokens l) (not_in ["("%string]).
Proof.
  intros W. unfold opt_params. destruct l as [|p l].
  - apply takes_look_r; [apply takes_ret|]. intros rest H. exact H.
  - apply takes_look_l; [|reflexivity]. eapply takes_weaken; [apply takes_params; [discriminate|exact W]|lia|easy].
Qed.
Lemma takes_templ {R} b n l : takes b n (@templ_params R n) l (templ_tokens l) (not_in ["<"%string]).
Proof.
  unfold templ_params. destruct l as [|p l].
  - apply takes_look_r; [apply takes_ret|]. intros rest H. exact H.
  - apply takes_look_l; [|reflexivity]. apply takes_t.
    eapply (takes_then_g _ _ _ _ _ _ _ _ [] (at_tok ">")); [|apply takes_t, takes_ret|auto].
    apply (takes_commas false n _ _ _ _ any); try easy.
    + intros rest (tl & ->). split; [reflexivity|easy].
Qed.
(** What may stand behind the fields. *)
Definition at_members_end : list token -> Prop := fun ts => exists s tl, ts = K s :: tl /\ In s ["function"; "}"]%string.
Lemma functions_front gs tl : at_members_end (flat_map fun_tokens gs ++ K "}" :: tl).
Proof. destruct gs as [|g gs]; cbn [flat_map app]; eexists _, _; (split; [reflexivity|cbn; tauto]). Qed.
Lemma members_end l ts : at_members_end ts -> existsb (String.eqb "function") l = false -> existsb (String.eqb "}") l = false -> not_in l ts.
Proof. intros (s & tl & -> & M) A B. cbn [In] in M. destruct M as [<-|[<-|[]]]; assumption. Qed.
Lemma params_front ps s tl : not_in ["<"%string] (K s :: tl) -> not_in ["<"%string] (params_tokens ps ++ K s :: tl).
Proof. intros H. destruct ps; [exact H|reflexivity]. Qed.
Lemma takes_body_end {R B} b n (gs : list pfun) (f : list pfun -> B) : Forall fun_wf gs ->
  takes b n (let%p y := @functions R n in tok "}" ;; tok ";" ;; pret (f y)) (f gs) (flat_map fun_tokens gs ++ [K "}"; K ";"]) any.
Proof.
  intros W. eapply takes_then_g; [now apply takes_functions|do 2 apply takes_t; apply takes_ret|]. reflexivity.
Qed.
Lemma quiet_body_end {R B} n (f : list pfun -> B) : quiet 0 (let%p y := @functions R n in tok "}" ;; tok ";" ;; pret (f y)) n.
Proof. apply quiet_bind0; [apply quiet_functions|]. intros. quiet0. Qed.
Lemma takes_structure {R} n x tps ps fl gs : decl_wf (PStruct x tps ps fl gs) ->
  takes true n (@structure R n) (PStruct x tps ps fl gs) (decl_tokens (PStruct x tps ps fl gs)) any.
Proof.
  intros (Wp & Wf & Wg). unfold structure. cbn [decl_tokens app]. apply takes_t, takes_i.
  eapply takes_bind_g; [apply takes_templ| |intros; rewrite <- app_assoc; now apply params_front].
  eapply takes_then_g; [now apply takes_opt_params| |reflexivity].
  apply takes_t. eapply (takes_bind _ _ _ _ _ _ _ _ at_members_end).
  - apply (takes_many true n _ _ _ _ _ any); try easy.
    + intros _. apply quiet_field.
    + intros a M. apply takes_field. eapply Forall_forall; eauto.
    + intros a rest M. split; [|easy]. apply field_starts. eapply Forall_forall; eauto.
    + intros a M. apply field_not_nil. eapply Forall_forall; eauto.
    + intros rest (s & tl & -> & M). cbn [In] in M. destruct M as [<-|[<-|[]]]; (split; [reflexivity|easy]).
  - intros _ y. apply (quiet_body_end n (PStruct x tps ps y)).
  - now apply (takes_body_end true n gs (PStruct x tps ps fl)).
  - intros rest _. rewrite <- app_assoc. apply functions_front.
Qed.
Lemma takes_union {R} n x tps ps fl gs : decl_wf (PUnion x tps ps fl gs) ->
  takes true n (@union R n) (PUnion x tps ps fl gs) (decl_tokens (PUnion x tps ps fl gs)) any.
Proof.
  intros (Wp & Wf & Wg). unfold union. cbn [decl_tokens app]. apply takes_t, takes_i.
  eapply takes_bind_g; [apply takes_templ| |intros; rewrite <- app_assoc; now apply params_front].
  eapply takes_then_g; [now apply takes_opt_params| |reflexivity].
  apply takes_t. eapply (takes_bind _ _ _ _ _ _ _ _ at_members_end).
  - apply (takes_many true n _ _ (fun f => cfield_tokens f ++ [K ";"]) _ _ any); try easy.
    + intros _. apply quiet_bind1; [apply quiet_cfield|]. intros. quiet0.
    + intros a M. eapply takes_then; [apply takes_cfield; eapply Forall_forall; eauto| |apply takes_t, takes_ret|auto].
      intros. quiet0.
    + intros a rest M. split; [|easy]. rewrite <- app_assoc. apply cfield_starts. eapply Forall_forall; eauto.
    + intros a M E. apply (f_equal (@List.length token)) in E. rewrite app_length in E. cbn in E. lia.
    + intros rest (s & tl & -> & M). cbn [In] in M. destruct M as [<-|[<-|[]]]; (split; [reflexivity|easy]).
  - intros _ y. apply (quiet_body_end n (PUnion x tps ps y)).
  - now apply (takes_body_end true n gs (PUnion x tps ps fl)).
  - intros rest _. rewrite <- app_assoc. apply functions_front.
Qed.
Lemma takes_case {R} b n e : grouped e -> takes b n (@choice_case R n) e ([K "case"] ++ expr_tokens e ++ [K ":"]) any.
Proof.
  intros W. unfold choice_case. cbn [app]. apply takes_t.
  eapply takes_then_g; [now apply takes_expr|apply takes_t, takes_ret|]. intros. apply closed_cons; auto with closers.
Qed.
Lemma opt_cfield_front x tl l : opt_wf cfield_wf x ->
  existsb (String.eqb ";") l = false ->
  forallb (fun s => negb (existsb (String.eqb s) l)) ("packed"%string :: "implicit"%string :: bit_types ++ plain_types) = true ->
  not_in l (opt_cfield_tokens x ++ K ";" :: tl).
Proof.
  intros W E H. destruct x as [f|]; [|exact E]. cbn [opt_cfield_tokens]. unfold cfield_tokens. rewrite <- app_assoc.
  apply la_in_member; [apply W|exact H].
Qed.
Lemma takes_cases {R} n c : case_wf c -> takes true n (@choice_cases R n) c (case_tokens c) any.
Proof.
  intros (N & We & Wf). destruct c as [[|e l] f]; [destruct (N eq_refl)|]. cbn [fst snd] in *. unfold case_tokens. cbn [fst snd].
  inversion We as [|? ? We1 We2]; subst. unfold choice_cases. cbn [flat_map]. rewrite <- app_assoc.
  eapply takes_bind_g; [now apply takes_case| |easy].
  eapply (takes_bind_g _ _ _ _ _ _ _ _ (not_in ["case"%string])).
  - apply (takes_many false n _ _ (fun e => [K "case"] ++ expr_tokens e ++ [K ":"]) _ _ any); try easy.
    intros a M. apply takes_case. eapply Forall_forall; eauto.
  - eapply takes_then; [now apply takes_opt_cfield| |apply takes_t, takes_ret|auto]. intros. quiet0.
  - intros rest _. rewrite <- app_assoc. now apply opt_cfield_front.
Qed.
Lemma takes_default {R} n d : opt_wf (opt_wf cfield_wf) d ->
  takes true n (opt (la "default") (tok "default" ;; tok ":" ;; let%p f := opt la_member (choice_field n) in tok ";" ;; pret f) : parser R (option (option pcfield))) d
    (default_tokens d) (not_in ["default"%string]).
Proof.
  intros W. replace (default_tokens d) with (opt_tokens (fun f => K "default" :: K ":" :: opt_cfield_tokens f ++ [K ";"]) d) by (destruct d; reflexivity).
  apply takes_opt; [|intros _ rest H; exact H]. intros f ->. split; [|reflexivity]. do 2 apply takes_t.
  eapply takes_then; [now apply takes_opt_cfield| |apply takes_t, takes_ret|auto]. intros. quiet0.
Qed.
Lemma takes_choice {R} n x tps ps sel cs d gs : decl_wf (PChoice x tps ps sel cs d gs) ->
  takes true n (@choice R n) (PChoice x tps ps sel cs d gs) (decl_tokens (PChoice x tps ps sel cs d gs)) any.
Proof.
  intros (N & Wp & We & Wc & Wd & Wg). unfold choice. cbn [decl_tokens app]. apply takes_t, takes_i.
  eapply takes_bind_g; [apply takes_templ| |intros; rewrite <- app_assoc; now apply params_front].
  eapply takes_then_g; [now apply takes_params| |easy].
  apply takes_t. eapply takes_then_g; [now apply takes_expr| |intros; apply closed_cons; auto with closers].
  apply takes_t. eapply (takes_bind _ _ _ _ _ _ _ _ (not_in ["case"%string])).
  - apply (takes_many true n _ _ _ _ _ any); try easy.
    + intros _. apply quiet_cases.
    + intros a M. apply takes_cases. eapply Forall_forall; eauto.
    + intros a rest M. split; [|easy]. rewrite Forall_forall in Wc. destruct (Wc _ M) as (Na & _). destruct a as [[|e l] f]; [destruct (Na eq_refl)|]. reflexivity.
    + intros a M E. rewrite Forall_forall in Wc. destruct (Wc _ M) as (Na & _). destruct a as [[|e l] f]; [destruct (Na eq_refl)|]. discriminate.
  - intros _ y. apply quiet_bind0; [apply quiet_default|]. intros z. apply (quiet_body_end n (PChoice x tps ps sel y z)).
  - eapply (takes_bind _ _ _ _ _ _ _ _ (not_in ["default"%string])); [now apply takes_default| | |].
    + intros _ z. apply (quiet_body_end n (PChoice x tps ps sel cs z)).
    + now apply (takes_body_end true n gs (PChoice x tps ps sel cs d)).
    + intros rest _. rewrite <- app_assoc. eapply members_end; [apply functions_front|reflexivity|reflexivity].
  - intros rest _. destruct d as [f|]; [reflexivity|]. cbn [default_tokens app]. rewrite <- app_assoc.
    eapply members_end; [apply functions_front|reflexivity|reflexivity].
Qed.
(** ** Enums and bitmasks *)

Definition at_items_end : list token -> Prop := fun ts => exists s tl, ts = K s :: tl /\ In s [","; "}"]%string.
Lemma items_closed ts : at_items_end ts -> not_in ["="%string] ts /\ closed ts.
Proof.
  intros (s & tl & -> & M). cbn [In] in M. destruct M as [<-|[<-|[]]]; (split; [reflexivity|apply closed_cons; auto with closers]).
Qed.
Lemma takes_enum_item {R} b n i : opt_wf grouped (pit_value i) -> takes b n (@enum_item R n) i (item_tokens i) at_items_end.
Proof.
  intros W. destruct i as [m x v]. unfold item_tokens, enum_item, value. cbn [pit_marker pit_name pit_value] in *.
  eapply (takes_bind_g _ _ _ _ m _ _ _ (fun ts => exists y tl, ts = I y :: tl)).
  - destruct m as [[|]|]; cbn [marker_tokens].
    + apply takes_look_l; [apply takes_t, takes_ret|reflexivity].
    + apply takes_look_r; [|reflexivity]. apply takes_look_l; [apply takes_t, takes_ret|reflexivity].
    + apply takes_look_r; [apply takes_look_r; [apply takes_ret|]|]; intros rest (y & tl & ->); reflexivity.
  - apply takes_i. apply (takes_map b n _ (PItem m x)). apply takes_behind; [exact W|apply items_closed].
  - intros rest _. cbn [app]. eauto.
Qed.
Lemma takes_mask_item {R} b n i : opt_wf grouped (snd i) -> takes b n (@mask_item R n) i (mask_item_tokens i) at_items_end.
Proof.
  intros W. destruct i as [x v]. unfold mask_item_tokens, mask_item, value. cbn [fst snd] in *.
  apply takes_i. apply (takes_map b n _ (pair x)). apply takes_behind; [exact W|apply items_closed].
Qed.
Lemma takes_more {R A} n (p : parser R A) f (l : list A) :
  (forall a, In a l -> takes false n p a (f a) at_items_end) ->
  (forall k tl, p k (K "}" :: tl) = Fails) ->
  forall m, (m <= n)%nat -> takes false m (more m p) l (flat_map (fun x => K "," :: f x) l)
    (fun ts => exists c tl, ts = word c "," ++ K "}" :: tl).
Proof.
  intros HP HX. induction l as [|a l IH]; intros m M k rest r L (c & tl & ->) HK E.
  - destruct m as [|m]; [lia|]. cbn [more flat_map app]. unfold predict, pbind, pret. destruct c; cbn [word app tok String.eqb Ascii.eqb Bool.eqb].
    + rewrite HX. exact E.
    + exact E.
  - destruct m as [|m]; [lia|]. cbn [more flat_map app] in *. unfold predict, pbind, pret. cbn [tok String.eqb Ascii.eqb Bool.eqb].
    rewrite <- app_assoc in *. rewrite (HP a (or_introl eq_refl) _ _ r); auto; [len| |discriminate|].
    + destruct l as [|y l]; cbn [flat_map app].
      * destruct c; cbn [word app]; eexists _, _; (split; [reflexivity|cbn; tauto]).
      * eexists _, _; (split; [reflexivity|cbn; tauto]).
    + apply IH; auto; try lia; [|len|eauto].
      intros y My. apply HP. cbn. auto.
Qed.
Lemma takes_items {R A B} n (p : parser R A) f (l : list A) c (g : list A * bool -> B) : l <> [] ->
  (forall a, In a l -> takes false n p a (f a) at_items_end) ->
  (forall k tl, p k (K "}" :: tl) = Fails) ->
  takes false n (let%p y := items n p in tok "}" ;; tok ";" ;; pret (g y)) (g (l, c)) (separated f l ++ word c "," ++ [K "}"; K ";"]) any.
Proof.
  intros N HP HX. destruct l as [|a l]; [congruence|]. rewrite separated_cons.
  rewrite (app_assoc (f a ++ _)).
  eapply (takes_then_g _ _ _ _ _ _ _ _ _ (at_tok "}")); [|do 2 apply takes_t; apply takes_ret|auto].
  unfold items. rewrite <- app_assoc. eapply takes_bind_g; [apply HP; cbn; auto| |].
  - eapply takes_bind_g; [apply (takes_more n p f l); auto| |].
    + intros y M. apply HP. cbn. auto.
    + apply (takes_map false n _ (fun c => (a :: l, c))). apply takes_flag. intros -> rest (tl & ->). reflexivity.
    + intros rest (tl & ->). eauto.
  - intros rest (tl & ->). destruct l as [|y l]; cbn [flat_map app].
    + destruct c; cbn [word app]; eexists _, _; (split; [reflexivity|cbn; tauto]).
    + eexists _, _; (split; [reflexivity|cbn; tauto]).
Qed.
Lemma name_brace x tl : at_name (I x :: K "{" :: tl).
Proof. exists x, (K "{" :: tl). split; [reflexivity|]. exists None, "{"%string, tl. split; [reflexivity|cbn; tauto]. Qed.
Lemma name_eq x tl : at_name (I x :: K "=" :: tl).
Proof. exists x, (K "=" :: tl). split; [reflexivity|]. exists None, "="%string, tl. split; [reflexivity|cbn; tauto]. Qed.

Lemma name_semi x tl : at_name (I x :: K ";" :: tl).
Proof. exists x, (K ";" :: tl). split; [reflexivity|]. exists None, ";"%string, tl. split; [reflexivity|cbn; tauto]. Qed.
Lemma name_sql x e tl : at_name (I x :: behind "sql" e ++ K ";" :: tl).
Proof.
  destruct e as [e|]; [|apply name_semi]. eexists x, _. split; [reflexivity|]. eexists None, "sql"%string, _. split; [reflexivity|cbn; tauto].
Qed.

(** ** Rule groups, SQL tables and databases, services, pubsubs *)

Lemma inst_la t rest : type_wf (pi_type t) -> la_type (inst_tokens t ++ rest) = true.
Proof. intros W. unfold inst_tokens. rewrite <- app_assoc. now apply type_starts. Qed.
Lemma takes_rules {R} n x l : Forall grouped l -> takes true n (@rule_group R n) (PRules x l) (other_tokens (PRules x l)) any.
Proof.
  intros W. unfold rule_group. cbn [other_tokens app]. apply takes_t, takes_i, takes_t. apply takes_any.
  eapply (takes_then_g _ _ _ _ l _ _ _ _ (not_in ["rule"%string])); [|do 2 apply takes_t; apply takes_ret|reflexivity].
  apply (takes_many false n _ _ (fun e => [K "rule"] ++ expr_tokens e ++ [K ";"]) _ _ any); try easy.
  intros e M. unfold rule. cbn [app]. apply takes_t. rewrite Forall_forall in W.
  eapply takes_then_g; [apply takes_expr; auto|apply takes_t, takes_ret|]. intros. apply closed_cons; auto with closers.
Qed.
Lemma takes_table_field {R} n f : inst_wf (ptf_inst f) -> opt_wf grouped (ptf_sql f) ->
  takes true n (@table_field R n) f (tfield_tokens f) any.
Proof.
  intros W We. destruct f as [v t x s]. unfold table_field, tfield_tokens. cbn [ptf_virtual ptf_inst ptf_name ptf_sql] in *.
  eapply (takes_bind_g _ _ _ _ v _ _ _ (not_in ["sql_virtual"%string])); [now apply takes_flag| |].
  - eapply takes_bind; [now apply takes_inst| | |].
    + intros _ y. unfold sql_constraint. pose proof (@quiet_behind R n "sql"). quiet0.
    + apply takes_i. unfold sql_constraint.
      eapply (takes_then_g _ _ _ _ s _ _ _ _ (at_tok ";")); [|apply takes_t, takes_ret|auto].
      apply takes_behind; [exact We|]. intros rest (tl & ->). split; [reflexivity|apply closed_cons; auto with closers].
    + intros rest _. cbn [app]. rewrite <- app_assoc. apply name_sql.
  - intros rest _. rewrite <- !app_assoc. apply la_in_inst; [apply W|reflexivity].
Qed.
Lemma table_field_starts f rest : inst_wf (ptf_inst f) -> la_table_field (tfield_tokens f ++ rest) = true.
Proof.
  intros W. destruct f as [v t x s]. unfold tfield_tokens, la_table_field. cbn [ptf_virtual ptf_inst ptf_name ptf_sql] in *.
  destruct v; [reflexivity|]. cbn [word app]. rewrite <- app_assoc, inst_la; [apply orb_true_r|apply W].
Qed.
Lemma takes_table {R} n x tps u fl c w : other_wf (PTable x tps u fl c w) ->
  takes true n (@table R n) (PTable x tps u fl c w) (other_tokens (PTable x tps u fl c w)) any.
Proof.
  intros (Wf & Wc). rewrite Forall_forall in Wf. unfold table. cbn [other_tokens app]. apply takes_t, takes_i.
  eapply takes_bind_g; [apply takes_templ| |].
  2:{ intros rest _. destruct u; reflexivity. }
  change (match u with Some y => [K "using"; I y] | None => [] end) with (opt_tokens (fun y => [K "using"; I y]) u).
  eapply (takes_then_g _ _ _ _ u _ _ _ _ (at_tok "{")); [| |auto].
  { apply takes_opt; [|intros _ rest (tl & ->); reflexivity]. intros y ->. split; [|reflexivity]. apply takes_t, takes_ident. }
  apply takes_t.
  assert (Q : forall b, quiet 0 (look (la "sql_without_rowid") (tok "sql_without_rowid" ;; tok ";" ;; pret true) (pret false) : parser R bool) b).
  { intros b. quiet0. }
  assert (Q2 : quiet 0 (opt (la "sql") (let%p e := sql_constraint n in tok ";" ;; pret e) : parser R (option pexpr)) n).
  { apply quiet_opt. unfold sql_constraint. pose proof (@quiet_expr0 R n 0). apply quiet_bind0; [quiet0|]. intros. quiet0. }
  eapply (takes_bind _ _ _ _ fl _ _ _ (fun ts => la_table_field ts = false)).
  - apply (takes_many true n _ _ tfield_tokens _ _ any); try easy.
    + intros _. unfold table_field, sql_constraint. apply quiet_bind01; [apply quiet_flag|]. intros v.
      apply quiet_bind1; [apply quiet_inst|]. intros t. apply quiet_bind0; [quiet0|]. intros y.
      apply quiet_bind0; [apply quiet_behind|]. intros. quiet0.
    + intros f M. apply takes_table_field; apply (Wf f M).
    + intros f rest M. split; [|easy]. apply table_field_starts. apply (Wf f M).
    + intros f M E. pose proof (table_field_starts f [] (proj1 (Wf f M))) as S1. rewrite E in S1. discriminate.
  - intros _ y. apply quiet_bind0; [exact Q2|]. intros z. apply quiet_bind0; [apply Q|]. intros. quiet0.
  - change (match c with Some e => K "sql" :: expr_tokens e ++ [K ";"] | None => [] end) with (opt_tokens (fun e => K "sql" :: expr_tokens e ++ [K ";"]) c).
    apply takes_any.
    eapply (takes_bind_g _ _ _ _ c _ _ _ (not_in ["sql"%string])).
    + apply takes_opt; [|intros _ rest H; exact H]. intros e ->. split; [|reflexivity]. unfold sql_constraint.
      change (K "sql" :: expr_tokens e ++ [K ";"]) with ((K "sql" :: expr_tokens e) ++ [K ";"]).
      eapply (takes_then_g _ _ _ _ e _ _ _ [] (at_tok ";")); [|apply takes_t, takes_ret|auto].
      apply takes_t. eapply takes_weaken; [apply takes_expr; exact Wc|lia|]. intros rest (tl & ->). apply closed_cons; auto with closers.
    + eapply (takes_then_g _ _ _ _ w _ _ _ _ (at_tok "}")); [|do 2 apply takes_t; apply takes_ret|auto].
      destruct w; [apply takes_look_l; [do 2 apply takes_t; apply takes_ret|reflexivity]|].
      apply takes_look_r; [apply takes_ret|]. intros rest (tl & ->). reflexivity.
    + intros rest _. destruct w; reflexivity.
  - intros rest _. destruct c, w; reflexivity.
Qed.
Lemma takes_database_field {R} n f : inst_wf (fst f) ->
  takes true n (@database_field R n) f (inst_tokens (fst f) ++ [I (snd f); K ";"]) any.
Proof.
  intros W. destruct f as [t x]. unfold database_field. cbn [fst snd] in *.
  eapply takes_bind; [now apply takes_inst| | |intros; apply name_semi].
  - intros _ y. quiet0.
  - apply takes_i, takes_t, takes_ret.
Qed.
Lemma takes_database {R} n x fl : other_wf (PDatabase x fl) ->
  takes true n (@database R n) (PDatabase x fl) (other_tokens (PDatabase x fl)) any.
Proof.
  intros (N & W). unfold database. cbn [other_tokens app]. destruct fl as [|f l]; [congruence|].
  inversion W as [|? ? Wf Wl]; subst. rewrite Forall_forall in Wl. apply takes_t, takes_i, takes_t.
  cbn [flat_map]. rewrite <- app_assoc.
  assert (Q : quiet 1 (@database_field R n) n).
  { unfold database_field. apply quiet_bind1; [apply quiet_inst|]. intros t. quiet0. }
  assert (Q2 : quiet 0 (many n la_type (@database_field R n)) n) by (apply (quiet_many _ _ n); [exact Q|lia]).
  eapply (takes_bind _ _ _ _ f _ _ _ any); [now apply takes_database_field| | |easy].
  - intros _ y. quiet0.
  - eapply (takes_bind _ _ _ _ l _ _ _ (fun ts => la_type ts = false)).
    + apply (takes_many true n _ _ (fun f => inst_tokens (fst f) ++ [I (snd f); K ";"]) _ _ any); try easy.
      * intros g M. apply takes_database_field. auto.
      * intros g rest M. split; [|easy]. rewrite <- app_assoc. apply inst_la. apply (Wl g M).
      * intros g M E. apply app_eq_nil in E as (_ & E). discriminate.
    + intros _ y. quiet0.
    + do 2 apply takes_t. apply takes_ret.
    + reflexivity.
Qed.
Lemma takes_service {R} n x ms : other_wf (PService x ms) ->
  takes true n (@service R n) (PService x ms) (other_tokens (PService x ms)) any.
Proof.
  cbn [other_wf]. intros W. rewrite Forall_forall in W. unfold service. cbn [other_tokens app]. apply takes_t, takes_i, takes_t. apply takes_any.
  eapply (takes_then_g _ _ _ _ ms _ _ _ _ (fun ts => la_type ts = false)); [|do 2 apply takes_t; apply takes_ret|reflexivity].
  apply (takes_many false n _ _ method_tokens _ _ any); try easy.
  - intros m M. destruct (W m M) as (W1 & W2). destruct m as [t y u]. unfold method, method_tokens. cbn [pmt_result pmt_name pmt_argument] in *.
    eapply takes_bind_g; [now apply takes_type| |intros; apply after_name]. cbn [app]. apply takes_i, takes_t.
    eapply takes_bind_g; [now apply takes_type|do 2 apply takes_t; apply takes_ret|].
    intros. split; [reflexivity|left; reflexivity].
  - intros m rest M. split; [|easy]. unfold method_tokens. rewrite <- app_assoc. apply type_starts. apply (W m M).
  - intros m M E. apply app_eq_nil in E as (_ & E). discriminate.
Qed.
Lemma takes_pubsub {R} n x ms : other_wf (PPubsub x ms) ->
  takes true n (@pubsub R n) (PPubsub x ms) (other_tokens (PPubsub x ms)) any.
Proof.
  cbn [other_wf]. intros W. rewrite Forall_forall in W. unfold pubsub. cbn [other_tokens app]. apply takes_t, takes_i, takes_t. apply takes_any.
  eapply (takes_then_g _ _ _ _ ms _ _ _ _ (not_in ["publish"; "subscribe"; "topic"]%string)); [|do 2 apply takes_t; apply takes_ret|reflexivity].
  apply (takes_many false n _ _ message_tokens _ _ any); try easy.
  - intros m M. destruct (W m M) as (W1 & W2). destruct m as [a e t y]. unfold message, message_tokens. cbn [pmg_access pmg_topic pmg_type pmg_name] in *.
    eapply (takes_bind_g _ _ _ _ a _ _ _ (at_tok "topic")); [| |intros; cbn [app]; auto].
    + destruct a as [[|]|]; cbn [access_tokens].
      * apply takes_look_l; [apply takes_t, takes_ret|reflexivity].
      * apply takes_look_r; [|reflexivity]. apply takes_look_l; [apply takes_t, takes_ret|reflexivity].
      * apply takes_look_r; [apply takes_look_r; [apply takes_ret|]|]; intros rest (tl & ->); reflexivity.
    + cbn [app]. do 2 apply takes_t. eapply takes_then_g; [now apply takes_expr| |intros; apply closed_cons; auto with closers].
      apply takes_t. eapply takes_bind_g; [now apply takes_type|apply takes_i, takes_t, takes_ret|intros; apply after_name].
  - intros m rest M. split; [|easy]. destruct m as [[[|]|] e t y]; reflexivity.
  - intros m M E. destruct m as [[[|]|] e t y]; discriminate.
Qed.
Lemma takes_other {R} n o : other_wf o -> takes true n (@other R n) o (other_tokens o) any.
Proof.
  intros W. unfold other. destruct o as [x l|x tps u fl c w|x fl|x ms|x ms].
  - apply takes_look_l; [now apply takes_rules|reflexivity].
  - do 1 (apply takes_look_r; [|reflexivity]). apply takes_look_l; [now apply takes_table|reflexivity].
  - do 2 (apply takes_look_r; [|reflexivity]). apply takes_look_l; [now apply takes_database|reflexivity].
  - do 3 (apply takes_look_r; [|reflexivity]). apply takes_look_l; [now apply takes_service|reflexivity].
  - do 4 (apply takes_look_r; [|reflexivity]). apply takes_look_l; [now apply takes_pubsub|reflexivity].
Qed.

Lemma takes_directive {R} n d : decl_wf d -> takes true n (@directive R n) d (decl_tokens d) any.
Proof.
  intros W. unfold directive. destruct d as [x tps ps fl gs|x tps ps sel cs d gs|x tps ps fl gs|t x l c|t x l c|t x e|t x|t x|o].
  - do 2 (apply takes_look_r; [|reflexivity]). apply takes_look_l; [|reflexivity]. now apply takes_structure.
  - do 3 (apply takes_look_r; [|reflexivity]). apply takes_look_l; [|reflexivity]. now apply takes_choice.
  - do 4 (apply takes_look_r; [|reflexivity]). apply takes_look_l; [|reflexivity]. now apply takes_union.
  - do 5 (apply takes_look_r; [|reflexivity]). apply takes_look_l; [|reflexivity].
    destruct W as (Wt & N & Wl). unfold enum. cbn [decl_tokens app]. apply takes_t.
    eapply takes_bind; [now apply takes_inst| | |intros; apply name_brace].
    + intros _ y. pose proof (quiet_0 _ _ (quiet_items _ n (@quiet_enum_item R n))). quiet0.
    + apply takes_i, takes_t. apply takes_any.
      apply (takes_items n (enum_item n) item_tokens l c (fun y => PEnum t x (fst y) (snd y))); auto.
      intros a M. apply takes_enum_item. rewrite Forall_forall in Wl. auto.
  - do 6 (apply takes_look_r; [|reflexivity]). apply takes_look_l; [|reflexivity].
    destruct W as (Wt & N & Wl). unfold bitmask. cbn [decl_tokens app]. apply takes_t.
    eapply takes_bind; [now apply takes_inst| | |intros; apply name_brace].
    + intros _ y. pose proof (quiet_0 _ _ (quiet_items _ n (@quiet_mask_item R n))). quiet0.
    + apply takes_i, takes_t. apply takes_any.
      apply (takes_items n (mask_item n) mask_item_tokens l c (fun y => PMask t x (fst y) (snd y))); auto.
      intros a M. apply takes_mask_item. rewrite Forall_forall in Wl. auto.
  - apply takes_look_l; [|reflexivity]. destruct W as (Wt & We). unfold constant. cbn [decl_tokens app]. apply takes_t.
    eapply takes_bind; [now apply takes_inst| | |intros; apply name_eq].
    + intros _ y. pose proof (@quiet_expr0 R n 0). quiet0.
    + apply takes_i, takes_t. eapply takes_then_g; [now apply takes_expr|apply takes_t, takes_ret|].
      intros. apply closed_cons; auto with closers.
  - apply takes_look_r; [|reflexivity]. apply takes_look_l; [|reflexivity]. unfold subtype. cbn [decl_tokens app]. apply takes_t.
    eapply takes_bind_g; [now apply takes_type|apply takes_i, takes_t, takes_ret|intros; apply after_name].
  - do 7 (apply takes_look_r; [|reflexivity]). apply takes_look_l; [|reflexivity]. unfold instantiate_decl. cbn [decl_tokens app]. apply takes_t.
    eapply takes_bind_g; [now apply takes_type|apply takes_i, takes_t, takes_ret|intros; apply after_name].
  - do 8 (apply takes_look_r; [|destruct o; reflexivity]). apply (takes_map true n _ POther). now apply takes_other.
Qed.
(** ** Files *)

Lemma takes_import_path {R} n l : takes false n (@import_path R n) l (flat_map (fun x => [I x; K "."]) l)
  (fun ts => exists t u tl, ts = t :: u :: tl /\ u <> K "." /\ u = K ";").
Proof.
  revert n. induction l as [|a l IH]; intros n k rest r L HG HK E; (destruct n as [|m]; [lia|]); cbn [import_path flat_map app] in *; unfold predict, pbind, pret.
  - destruct HG as (t & u & tl & -> & _ & ->). destruct t as [s|j s|s]; exact E.
  - cbn [ident tok String.eqb Ascii.eqb Bool.eqb]. rewrite (IH m _ rest r); auto; [|discriminate]. cbn [List.length] in L. lia.
Qed.
Lemma takes_import {R} b n i : import_wf i -> takes b n (@import_decl R n) i (import_tokens i) any.
Proof.
  intros W. apply takes_any. destruct i as [[|a l] star]; [destruct star; destruct W|]. unfold import_decl, import_tokens.
  cbn [fst snd] in *. destruct star.
  - change [K "."; K "*"; K ";"] with ([K "."] ++ [K "*"; K ";"]). rewrite (app_assoc (dotted (a :: l))), dotted_star. cbn [app].
    apply takes_t, takes_i, takes_t. eapply takes_bind_g; [apply takes_import_path| |].
    + change [K "*"; K ";"] with ([K "*"] ++ [K ";"]). eapply (takes_bind_g _ _ _ _ (a :: l, true) _ _ _ any).
      * apply takes_look_r; [apply takes_t, takes_ret|reflexivity].
      * apply takes_t, takes_ret.
      * easy.
    + intros rest _. cbn [app]. eexists _, _, _. split; [reflexivity|]. split; [discriminate|reflexivity].
  - cbn in W. destruct (exists_last W) as (m & z & ->). rewrite dotted_last. cbn [app]. 
    apply takes_t, takes_i, takes_t. rewrite <- app_assoc. eapply takes_bind_g; [apply takes_import_path| |].
    + eapply (takes_bind_g _ _ _ _ (a :: m ++ [z], false) _ _ _ any).
      * apply takes_look_l; [apply takes_i, takes_ret|reflexivity].
      * apply takes_t, takes_ret.
      * easy.
    + intros rest _. cbn [app]. eexists _, _, _. split; [reflexivity|]. split; [discriminate|reflexivity].
Qed.
Lemma takes_version {R} b n s : takes b n (@version R) s [K "zserio_compatibility_version"; K "("; L TkStr s; K ")"; K ";"] any.
Proof.
  unfold version. do 2 apply takes_t. change (L TkStr s :: ?c) with ([L TkStr s] ++ c).
  eapply (takes_bind_g _ _ _ _ s _ [L TkStr s] _ any); [|do 2 apply takes_t; apply takes_ret|easy].
  intros k rest r _ _ _ E. exact E.
Qed.
Lemma takes_package_name {R} b n l : l <> [] -> takes b n (@package_name R n) l ([K "package"] ++ dotted l ++ [K ";"]) any.
Proof.
  intros N. unfold package_name. cbn [app]. apply takes_t.
  eapply takes_then_g; [apply (takes_qualified n n); [lia|exact N]|apply takes_t, takes_ret|]. reflexivity.
Qed.
Lemma decl_starts d rest : decl_wf d -> la_directive (decl_tokens d ++ rest) = true.
Proof. destruct d; intros W; try reflexivity. destruct o; reflexivity. Qed.
Lemma decls_front ds l : Forall decl_wf ds ->
  forallb (fun s => negb (existsb (String.eqb s) l)) ["bitmask"; "choice"; "const"; "enum"; "instantiate"; "pubsub"; "rule_group"; "service";
     "sql_database"; "sql_table"; "struct"; "subtype"; "union"]%string = true ->
  not_in l (flat_map decl_tokens ds).
Proof.
  intros W H. destruct W as [|d ds W _]; [reflexivity|]. cbn [flat_map]. pose proof (decl_starts d (flat_map decl_tokens ds) W) as S1.
  unfold la_directive, not_in, la_in in *. destruct (decl_tokens d ++ _) as [|[s|j s|s] tl]; auto.
  apply existsb_exists in S1 as (x & M & E). apply String.eqb_eq in E as <-. rewrite forallb_forall in H. apply H in M.
  now apply negb_true_iff in M.
Qed.
Definition at_eof : list token -> Prop := fun ts => ts = [].
Lemma takes_package {R} n f : file_wf f -> takes true n (@package R n) f (file_tokens f) at_eof.
Proof.
  intros (Wn & Wi & Wd). destruct f as [v nm imps ds]. unfold file_tokens, package. cbn [pl_version pl_package pl_imports pl_decls] in *.
  eapply (takes_bind_g _ _ _ _ v _ _ _ (not_in ["zserio_compatibility_version"%string])).
  { match goal with |- takes _ _ _ _ ?c _ => change c with (opt_tokens (fun s => [K "zserio_compatibility_version"; K "("; L TkStr s; K ")"; K ";"]) v) end.
    apply takes_opt; [|intros _ rest H; exact H]. intros s ->. split; [|reflexivity]. 
    apply (takes_weaken false n n _ _ _ any); [apply takes_version|lia|easy]. }
  2:{ intros rest ->. rewrite app_nil_r. destruct nm; [reflexivity|]. cbn [app].
      destruct imps; [|reflexivity]. cbn [flat_map app]. now apply decls_front. }
  eapply (takes_bind_g _ _ _ _ nm _ _ _ (not_in ["package"%string])).
  { match goal with |- takes _ _ _ _ ?c _ => change c with (opt_tokens (fun l => [K "package"] ++ dotted l ++ [K ";"]) nm) end.
    apply takes_opt; [|intros _ rest H; exact H]. intros l ->. split; [|reflexivity]. 
    apply (takes_weaken false n n _ _ _ any); [now apply takes_package_name|lia|easy]. }
  2:{ intros rest ->. rewrite app_nil_r. destruct imps; [|reflexivity]. cbn [flat_map app]. now apply decls_front. }
  eapply (takes_bind_g _ _ _ _ imps _ _ _ (not_in ["import"%string])).
  { apply (takes_many false n _ _ _ _ _ any); try easy.
    intros i M. apply takes_import. rewrite Forall_forall in Wi. auto. }
  2:{ intros rest ->. rewrite app_nil_r. now apply decls_front. }
  apply (takes_map true n _ (PFile v nm imps)). rewrite Forall_forall in Wd.
  apply (takes_many true n _ _ _ _ _ any); try easy.
  - intros _. apply quiet_directive.
  - intros d M. apply takes_directive. auto.
  - intros d rest M. split; [|easy]. apply decl_starts. auto.
  - intros d M E. pose proof (decl_starts d [] (Wd d M)) as S1. rewrite E in S1. discriminate.
  - intros rest ->. split; [reflexivity|easy].
Qed.

Theorem parse_back f : file_wf f -> parse (file_tokens f) = Parsed f.
Proof.
  intros W. unfold parse. assert (L : (List.length (file_tokens f) < S (List.length (file_tokens f)))%nat) by lia.
  revert L. generalize (S (List.length (file_tokens f))). intros n L.
  pose proof (takes_package n f W at_end [] f) as T. rewrite app_nil_r in T. apply T; auto; [reflexivity|].
  intros _ x rest' _. unfold at_end. destruct rest'; discriminate.
Qed.
