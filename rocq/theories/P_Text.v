(** Proofs for C74: the tree that is read from a text is one the compiler can be given. *)
From Coq Require Import ZArith List Bool String Ascii.
From Verif Require Import M_Base M_Expr M_Lit S_Lit M_Visit S_Visit.
From Verif Require Import P_Visit2.
From Verif Require M_Parse M_Lex S_Parse S_Lex P_Parse3 P_Lex6.
Import ListNotations.
Open Scope string_scope.
Open Scope list_scope.

(** ** Literals and names *)

Lemma every_cons P c s : S_Lex.every P (String c s) -> P c /\ S_Lex.every P s.
Proof. unfold S_Lex.every. cbn [list_ascii_of_string]. intros H. inversion H. auto. Qed.
Lemma digits_all base l : (forall c, In c (list_ascii_of_string l) -> is_digit base c = true) ->
  forall s, S_Lex.every (S_Lex.one_char l) s -> all_digits base s = true.
Proof.
  intros H. induction s as [|c s IH]; intros E; [reflexivity|]. apply every_cons in E as [A B].
  cbn [all_digits]. rewrite (H c A). cbn. auto.
Qed.
Ltac chars := let c := fresh in let H := fresh in intros c H; cbn in H;
  repeat (destruct H as [<-|H]; [reflexivity|]); destruct H.
Lemma digits_10 s : S_Lex.every S_Lex.Digit s -> all_digits 10 s = true.
Proof. apply digits_all. chars. Qed.
Lemma digits_16 s : S_Lex.every S_Lex.Hex s -> all_digits 16 s = true.
Proof. apply digits_all. chars. Qed.
Lemma digits_8 s : S_Lex.every S_Lex.Octal s -> all_digits 8 s = true.
Proof. apply digits_all. chars. Qed.
Lemma digits_2 s : S_Lex.every (S_Lex.one_char "01") s -> all_digits 2 s = true.
Proof. apply digits_all. chars. Qed.

Lemma decimal_denotes s : S_Lex.decimal_text s -> denotes TkDec s (numeral 10 s).
Proof.
  intros [->|(c & tl & -> & D & N & E)].
  - apply DnDec; [|now left]. split; [discriminate|reflexivity].
  - apply DnDec.
    + split; [discriminate|]. apply digits_10. unfold S_Lex.every. cbn [list_ascii_of_string]. constructor; assumption.
    + right. intros t Q. injection Q as -> _. now apply N.
Qed.
Lemma exponent_value s : S_Lex.exponent_text s -> s <> "" /\ exists k, exponent s k.
Proof.
  intros (e & g & d & -> & [<-|[<-|[]]] & [<-|[<-|[<-|[]]]] & N & D); apply digits_10 in D; (split; [discriminate|]);
    eexists; cbn [append]; solve [apply ExPlain; [auto|split; assumption]|apply ExPlus; [auto|split; assumption]|apply ExMinus; [auto|split; assumption]].
Qed.
Lemma double_value s : S_Lex.double_text s -> exists m k, double s m k.
Proof.
  intros [(d & e & -> & [N D] & E)|[(d & f & e & -> & [N D] & F & E)|(f & e & -> & [N F] & E)]].
  - apply exponent_value in E as [Ne (k & E)]. do 2 eexists. apply DbInt; [split; [exact N|now apply digits_10]|exact Ne|exact E].
  - assert (X : exists k, exponent e k) by (destruct E as [->|E]; [eexists; apply ExNone|now apply exponent_value in E]).
    destruct X as (k & X). do 2 eexists. cbn [append].
    apply DbPoint; [split; [exact N|now apply digits_10]|now apply digits_10|exact X].
  - assert (X : exists k, exponent e k) by (destruct E as [->|E]; [eexists; apply ExNone|now apply exponent_value in E]).
    destruct X as (k & X). do 2 eexists. cbn [append]. apply DbFrac; [split; [exact N|now apply digits_10]|exact X].
Qed.
Lemma literal_token k s : S_Lex.literal_text k s -> token k s.
Proof.
  destruct k; cbn [S_Lex.literal_text]; intros H.
  all: match goal with
  | H : S_Lex.decimal_text _ |- _ => eapply TokInt, decimal_denotes, H
  | H : S_Lex.hex_text _ |- _ => destruct H as (x & d & -> & [<-|[<-|[]]] & N & D); apply digits_16 in D;
      eapply TokInt; cbn [append]; apply DnHex; auto; split; assumption
  | H : S_Lex.octal_text _ |- _ => destruct H as (d & -> & N & D); apply digits_8 in D;
      eapply TokInt; cbn [append]; apply DnOct; split; assumption
  | H : S_Lex.binary_text _ |- _ => destruct H as (d & b & -> & [<-|[<-|[]]] & N & D); apply digits_2 in D;
      eapply TokInt; apply DnBin; auto; split; assumption
  | H : S_Lex.double_text _ |- _ => apply double_value in H as (m & k & H); eapply TokDouble, H
  | H : S_Lex.float_text _ |- _ => destruct H as (d & f & -> & H & [<-|[<-|[]]]); apply double_value in H as (m & k & H);
      apply TokFloat; eapply FlSuffix; eauto
  | H : S_Lex.string_text _ |- _ => destruct H as (l & -> & _); apply TokStr
  | H : _ \/ _ |- _ => apply TokBool, H
  end.
Qed.
Lemma alnum_char c : S_Lex.Alnum c -> id_char c = true.
Proof. revert c. intros c [H|H]; cbn in H; repeat (destruct H as [<-|H]; [reflexivity|]); destruct H. Qed.
Lemma alnum_chars s : S_Lex.every S_Lex.Alnum s -> id_chars s = true.
Proof.
  induction s as [|c s IH]; intros E; [reflexivity|]. apply every_cons in E as [A B].
  cbn [id_chars]. rewrite (alnum_char c A), (IH B). reflexivity.
Qed.
Lemma name_identifier s : S_Lex.name_text s -> identifier s.
Proof.
  intros ((c & tl & -> & H & E) & _). split; [discriminate|]. cbn [id_chars].
  rewrite (alnum_char c (or_introl H)), (alnum_chars tl E). reflexivity.
Qed.

(** ** Expressions and types *)

Notation wfs := (Forall S_Lex.token_wf).
Ltac parts H :=
  repeat match type of H with
  | Forall _ (_ ++ _) => let A := fresh "A" in apply Forall_app in H as [A H]; parts A
  | Forall _ (_ :: _) => let A := fresh "A" in inversion H as [|? ? A H' E]; clear H; rename H' into H; subst
  end.
Lemma expr_good e : wfs (S_Parse.expr_tokens e) -> expr_formed e.
Proof.
  unfold expr_formed.
  induction e; cbn [S_Parse.expr_tokens literals_of]; intros H; repeat rewrite Forall_app in *;
    try (repeat match goal with H : _ /\ _ |- _ => destruct H end; auto; fail).
  constructor; [|constructor]. inversion H; subst. cbn. now apply literal_token.
  all: try now constructor.
Qed.

Lemma dotted_good ids : wfs (S_Parse.dotted ids) -> Forall identifier ids.
Proof.
  induction ids as [|a [|b l] IH]; intros H; [constructor| |].
  - constructor; [|constructor]. inversion H; subst. now apply name_identifier.
  - constructor; [|apply IH].
    + cbn in H. inversion H; subst. now apply name_identifier.
    + cbn in H. inversion H as [|? ? ? H2]; subst. inversion H2; subst. assumption.
Qed.
Lemma sized_good s : In s S_Parse.sized_names -> s = "bit" \/ s = "int".
Proof. cbn. intros [<-|[<-|[]]]; auto. Qed.
Lemma builtin_good s : In s S_Parse.sized_names \/ In s S_Parse.builtin_names -> In s builtin_names.
Proof.
  intros [H|H]; cbn in H; repeat (destruct H as [<-|H]; [cbn; tauto|]); destruct H.
Qed.
Lemma type_good t : S_Parse.type_wf t -> wfs (S_Parse.type_tokens t) -> type_formed t.
Proof.
  induction t as [s w|ids ts IH] using ptype_ind'.
  - destruct w as [w|]; cbn; intros W H.
    + inversion H as [|? ? _ H2]; subst. inversion H2 as [|? ? _ H3]; subst. inversion H3 as [|? ? H4 _]; subst.
      eapply TfWidth; [now apply sized_good|]. apply decimal_denotes, H4.
    + apply TfBuiltin. now apply builtin_good.
  - intros W H. destruct W as [N W].
    assert (G : Forall identifier ids /\ Forall type_formed ts).
    { destruct ts as [|a l]; [split; [apply dotted_good, H|constructor]|].
      cbn in H. apply Forall_app in H as [A H]. split; [apply dotted_good, A|].
      inversion H as [|? ? _ H2]; subst. apply Forall_app in H2 as [B H2]. apply Forall_app in H2 as [H2 _].
      inversion IH as [|? ? I1 I2]; subst. destruct W as [Wa W]. constructor; [now apply I1|].
      clear - I2 W H2. revert W H2. induction l as [|b l IHl]; intros W H2; [constructor|].
      destruct W as [Wb W]. inversion H2 as [|? ? _ H3]; subst. apply Forall_app in H3 as [B H3].
      inversion I2 as [|? ? I1 I3]; subst. constructor; [now apply I1|]. now apply IHl. }
    destruct G as [G1 G2]. apply TfName; assumption.
Qed.
(** Things separated by commas. *)
Lemma separated_good {A} (f : A -> list M_Parse.token) l : wfs (S_Parse.separated f l) -> Forall (fun a => wfs (f a)) l.
Proof.
  induction l as [|a [|b l] IH]; intros H; [constructor| |].
  - constructor; [exact H|constructor].
  - cbn [S_Parse.separated] in H. apply Forall_app in H as [A1 H]. apply Forall_app in H as [_ H].
    constructor; [exact A1|]. now apply IH.
Qed.
Lemma flat_good {A} (f : A -> list M_Parse.token) l : wfs (flat_map f l) -> Forall (fun a => wfs (f a)) l.
Proof.
  induction l as [|a l IH]; intros H; [constructor|]. cbn [flat_map] in H. apply Forall_app in H as [A1 H].
  constructor; auto.
Qed.
Lemma flat_all {A B} (P : B -> Prop) (f : A -> list B) l : Forall (fun a => Forall P (f a)) l -> Forall P (flat_map f l).
Proof. induction 1; cbn [flat_map]; [constructor|]. apply Forall_app. auto. Qed.
Lemma map_all {A B} (P : B -> Prop) (f : A -> B) l : Forall (fun a => P (f a)) l -> Forall P (map f l).
Proof. induction 1; cbn [map]; constructor; auto. Qed.
Lemma both {A} (P Q R : A -> Prop) l : (forall a, P a -> Q a -> R a) -> Forall P l -> Forall Q l -> Forall R l.
Proof. intros H F G. induction F; inversion G; subst; constructor; auto. Qed.
Lemma weak {A} (P Q : A -> Prop) l : (forall a, P a -> Q a) -> Forall P l -> Forall Q l.
Proof. intros H F. eapply Forall_impl; eauto. Qed.

Lemma inst_good t : P_Parse3.inst_shape t -> wfs (S_Parse.inst_tokens t) -> inst_formed t /\ Forall expr_formed (inst_exprs t).
Proof.
  destruct t as [t s]. unfold P_Parse3.inst_shape, S_Parse.inst_tokens, inst_formed, inst_exprs. cbn [pi_type pi_suffix].
  intros [W N] H. apply Forall_app in H as [A H]. apply type_good in A; [|exact W].
  destruct s as [|l|e]; cbn [S_Parse.suffix_tokens] in H.
  - split; [split; [exact A|discriminate]|constructor].
  - split; [split; [exact A|]|]; [intros E; injection E as ->; now apply N|].
    apply Forall_app in H as [_ H]. apply Forall_app in H as [H _]. apply separated_good in H.
    apply flat_all. eapply weak; [|exact H]. intros [s|e]; cbn; intros X; [constructor|].
    constructor; [|constructor]. now apply expr_good.
  - split; [split; [exact A|discriminate]|]. apply Forall_app in H as [_ H]. apply Forall_app in H as [H _].
    constructor; [|constructor]. now apply expr_good.
Qed.
Lemma behind_good s x : wfs (S_Parse.behind s x) -> Forall expr_formed (list_of x).
Proof. destruct x; cbn; intros H; constructor; [|constructor]. inversion H; subst. now apply expr_good. Qed.
Lemma member_good m : P_Parse3.inst_shape (pm_inst m) -> wfs (S_Parse.member_tokens m) ->
  inst_formed (pm_inst m) /\ Forall expr_formed (member_exprs m).
Proof.
  intros W H. unfold S_Parse.member_tokens in H. apply Forall_app in H as [_ H]. apply Forall_app in H as [_ H].
  apply Forall_app in H as [A H]. apply Forall_app in H as [_ H]. apply inst_good in A as [A B]; [|exact W].
  split; [exact A|]. unfold member_exprs. apply Forall_app. split; [exact B|].
  destruct (pm_range m) as [[e|]|]; constructor; [|constructor]. cbn in H. inversion H as [|? ? _ H2]; subst.
  apply Forall_app in H2 as [H2 _]. now apply expr_good.
Qed.
Lemma field_good f : P_Parse3.field_shape f -> wfs (S_Parse.field_tokens f) ->
  inst_formed (pm_inst (pf_member f)) /\ Forall expr_formed (field_exprs f) /\ Forall expr_formed (list_of (pf_align f)).
Proof.
  intros W H. unfold S_Parse.field_tokens in H.
  apply Forall_app in H as [Ha H]. apply Forall_app in H as [Ho H]. apply Forall_app in H as [_ H]. apply Forall_app in H as [_ H].
  apply Forall_app in H as [Hm H]. apply Forall_app in H as [Hi H]. apply Forall_app in H as [Hc H]. apply Forall_app in H as [Hk _].
  apply member_good in Hm as [Hm1 Hm2]; [|exact W]. apply behind_good in Hi, Hc, Hk.
  split; [exact Hm1|]. split.
  - unfold field_exprs. apply Forall_app; split; [exact Hm2|]. repeat (apply Forall_app; split); auto.
    destruct (pf_offset f); cbn in *; constructor; [|constructor]. apply Forall_app in Ho as [Ho _]. now apply expr_good.
  - destruct (pf_align f); cbn in *; constructor; [|constructor]. inversion Ha as [|? ? _ Ha2]; subst.
    inversion Ha2 as [|? ? _ Ha3]; subst. apply Forall_app in Ha3 as [Ha3 _]. now apply expr_good.
Qed.
Lemma cfield_good f : P_Parse3.cfield_shape f -> wfs (S_Parse.cfield_tokens f) ->
  Forall inst_formed (cfield_insts f) /\ Forall expr_formed (cfield_exprs f).
Proof.
  intros W H. unfold S_Parse.cfield_tokens in H. apply Forall_app in H as [Hm H].
  apply member_good in Hm as [Hm1 Hm2]; [|exact W]. apply behind_good in H.
  split; [constructor; [exact Hm1|constructor]|]. unfold cfield_exprs. apply Forall_app. auto.
Qed.
Lemma opt_cfield_good f : S_Parse.opt_wf P_Parse3.cfield_shape f -> wfs (S_Parse.opt_cfield_tokens f) ->
  Forall inst_formed (flat_map cfield_insts (list_of f)) /\ Forall expr_formed (flat_map cfield_exprs (list_of f)).
Proof.
  destruct f as [f|]; cbn [S_Parse.opt_wf S_Parse.opt_cfield_tokens list_of flat_map]; intros W H; [|split; constructor].
  rewrite !app_nil_r. now apply cfield_good.
Qed.
Lemma fun_good g : P_Parse3.fun_shape g -> wfs (S_Parse.fun_tokens g) ->
  inst_formed (plain_inst (pfn_type g)) /\ expr_formed (pfn_body g).
Proof.
  intros W H. unfold S_Parse.fun_tokens in H. apply Forall_app in H as [_ H]. apply Forall_app in H as [A H].
  apply Forall_app in H as [_ H]. apply Forall_app in H as [B _].
  split; [split; [now apply type_good|discriminate]|now apply expr_good].
Qed.
Lemma funs_good gs : Forall P_Parse3.fun_shape gs -> wfs (flat_map S_Parse.fun_tokens gs) ->
  Forall inst_formed (map (fun g => plain_inst (pfn_type g)) gs) /\ Forall expr_formed (map pfn_body gs).
Proof.
  intros W H. apply flat_good in H.
  pose proof (both _ _ _ gs fun_good W H) as G. split; apply map_all; (eapply weak; [|exact G]); intros a X; apply X.
Qed.
Lemma params_good ps : Forall S_Parse.param_wf ps -> wfs (S_Parse.params_tokens ps) ->
  Forall inst_formed (map (fun p => plain_inst (pp_type p)) ps).
Proof.
  intros W H. apply map_all. destruct ps as [|p ps]; [constructor|]. unfold S_Parse.params_tokens in H.
  apply Forall_app in H as [_ H]. apply Forall_app in H as [H _]. apply separated_good in H.
  eapply both; [|exact W|exact H]. intros a Wa X. unfold S_Parse.param_tokens in X. apply Forall_app in X as [X _].
  split; [now apply type_good|discriminate].
Qed.
Lemma case_good c : P_Parse3.case_shape c -> wfs (S_Parse.case_tokens c) ->
  Forall inst_formed (flat_map cfield_insts (list_of (snd c))) /\ Forall expr_formed (case_exprs c).
Proof.
  intros [_ W] H. unfold S_Parse.case_tokens in H. apply Forall_app in H as [A H]. apply Forall_app in H as [H _].
  apply opt_cfield_good in H as [H1 H2]; [|exact W]. split; [exact H1|]. unfold case_exprs. apply Forall_app. split; [|exact H2].
  apply flat_good in A. eapply weak; [|exact A]. intros e X. apply Forall_app in X as [_ X]. apply Forall_app in X as [X _].
  now apply expr_good.
Qed.
Lemma default_good d : S_Parse.opt_wf (S_Parse.opt_wf P_Parse3.cfield_shape) d -> wfs (S_Parse.default_tokens d) ->
  Forall inst_formed (flat_map (fun f => flat_map cfield_insts (list_of f)) (list_of d))
  /\ Forall expr_formed (flat_map (fun f => flat_map cfield_exprs (list_of f)) (list_of d)).
Proof.
  destruct d as [f|]; cbn [S_Parse.opt_wf S_Parse.default_tokens]; intros W H; [|split; constructor].
  apply Forall_app in H as [_ H]. apply Forall_app in H as [H _].
  cbn [list_of flat_map]. rewrite !app_nil_r. now apply opt_cfield_good.
Qed.

Lemma other_good o : P_Parse3.other_shape o -> wfs (S_Parse.other_tokens o) ->
  Forall expr_formed (other_exprs o) /\ Forall inst_formed (other_insts o).
Proof.
  destruct o as [x l|x tps u fl c w|x fl|x ms|x ms]; cbn [P_Parse3.other_shape S_Parse.other_tokens other_exprs other_insts]; intros W H.
  - apply Forall_app in H as [_ H]. apply Forall_app in H as [H _]. apply flat_good in H. split; [|constructor].
    eapply weak; [|exact H]. intros e X. apply Forall_app in X as [_ X]. apply Forall_app in X as [X _]. now apply expr_good.
  - apply Forall_app in H as [_ H]. apply Forall_app in H as [_ H]. apply Forall_app in H as [_ H]. apply Forall_app in H as [_ H].
    apply Forall_app in H as [Hf H]. apply Forall_app in H as [Hc _]. apply flat_good in Hf.
    assert (G : Forall (fun f => inst_formed (ptf_inst f) /\ Forall expr_formed (inst_exprs (ptf_inst f) ++ list_of (ptf_sql f))) fl).
    { eapply both; [|exact W|exact Hf]. intros f Wt X. unfold S_Parse.tfield_tokens in X.
      apply Forall_app in X as [_ X]. apply Forall_app in X as [Xt X]. apply Forall_app in X as [_ X]. apply Forall_app in X as [X _].
      apply inst_good in Xt as [X1 X2]; [|exact Wt]. apply behind_good in X. split; [exact X1|apply Forall_app; auto]. }
    split.
    + apply Forall_app. split.
      * apply flat_all. eapply weak; [|exact G]. intros a X; apply X.
      * destruct c; cbn [list_of]; constructor; [|constructor]. apply Forall_app in Hc as [_ Hc]. apply Forall_app in Hc as [Hc _].
        now apply expr_good.
    + apply map_all. eapply weak; [|exact G]. intros a X; apply X.
  - destruct W as (_ & W). apply Forall_app in H as [_ H]. apply Forall_app in H as [H _]. apply flat_good in H.
    assert (G : Forall (fun f => inst_formed (fst f) /\ Forall expr_formed (inst_exprs (fst f))) fl).
    { eapply both; [|exact W|exact H]. intros f Wt X. apply Forall_app in X as [X _]. now apply inst_good. }
    split; [apply flat_all|apply map_all]; (eapply weak; [|exact G]); intros a X; apply X.
  - apply Forall_app in H as [_ H]. apply Forall_app in H as [H _]. apply flat_good in H. split; [constructor|].
    apply flat_all. eapply both; [|exact W|exact H]. intros m (W1 & W2) X. unfold S_Parse.method_tokens in X.
    apply Forall_app in X as [X1 X]. apply Forall_app in X as [_ X]. apply Forall_app in X as [X2 _].
    constructor; [|constructor; [|constructor]]; (split; [now apply type_good|discriminate]).
  - apply Forall_app in H as [_ H]. apply Forall_app in H as [H _]. apply flat_good in H.
    assert (G : Forall (fun m => inst_formed (plain_inst (pmg_type m)) /\ expr_formed (pmg_topic m)) ms).
    { eapply both; [|exact W|exact H]. intros m Wt X. unfold S_Parse.message_tokens in X.
      apply Forall_app in X as [_ X]. apply Forall_app in X as [_ X]. apply Forall_app in X as [X1 X].
      apply Forall_app in X as [_ X]. apply Forall_app in X as [X2 _].
      split; [split; [now apply type_good|discriminate]|now apply expr_good]. }
    split; apply map_all; (eapply weak; [|exact G]); intros a X; apply X.
Qed.
Lemma decl_good d : P_Parse3.decl_shape d -> wfs (S_Parse.decl_tokens d) -> formed d.
Proof.
  unfold formed. destruct d as [x tps ps fl gs|x tps ps sel cs dd gs|x tps ps fl gs|t x l c|t x l c|t x e|t x|t x|o];
    cbn [P_Parse3.decl_shape S_Parse.decl_tokens decl_exprs decl_aligns decl_insts]; intros W H.
  - destruct W as (Wp & Wf & Wg). apply Forall_app in H as [_ H]. apply Forall_app in H as [_ H]. apply Forall_app in H as [Hp H].
    apply Forall_app in H as [_ H]. apply Forall_app in H as [Hf H]. apply Forall_app in H as [Hg _].
    apply params_good in Hp; [|exact Wp]. apply funs_good in Hg as [Hg1 Hg2]; [|exact Wg].
    apply flat_good in Hf. pose proof (both _ _ _ fl field_good Wf Hf) as G.
    split; [apply Forall_app; split; [|exact Hg2]|split; [|repeat (apply Forall_app; split); auto]].
    + apply flat_all. eapply weak; [|exact G]. intros a X; apply X.
    + apply flat_all. eapply weak; [|exact G]. intros a X; apply X.
    + apply map_all. eapply weak; [|exact G]. intros a X; apply X.
  - destruct W as (_ & Wp & Wc & Wd & Wg). apply Forall_app in H as [_ H]. apply Forall_app in H as [_ H]. apply Forall_app in H as [Hp H].
    apply Forall_app in H as [_ H]. apply Forall_app in H as [Hs H]. apply Forall_app in H as [_ H].
    apply Forall_app in H as [Hc H]. apply Forall_app in H as [Hd H]. apply Forall_app in H as [Hg _].
    apply params_good in Hp; [|exact Wp]. apply funs_good in Hg as [Hg1 Hg2]; [|exact Wg].
    apply default_good in Hd as [Hd1 Hd2]; [|exact Wd]. apply expr_good in Hs.
    apply flat_good in Hc. pose proof (both _ _ _ cs case_good Wc Hc) as G.
    split; [constructor; [exact Hs|repeat (apply Forall_app; split); auto]|split; [constructor|repeat (apply Forall_app; split); auto]].
    + apply flat_all. eapply weak; [|exact G]. intros a X; apply X.
    + apply flat_all. eapply weak; [|exact G]. intros a X; apply X.
  - destruct W as (Wp & Wf & Wg). apply Forall_app in H as [_ H]. apply Forall_app in H as [_ H]. apply Forall_app in H as [Hp H].
    apply Forall_app in H as [_ H]. apply Forall_app in H as [Hf H]. apply Forall_app in H as [Hg _].
    apply params_good in Hp; [|exact Wp]. apply funs_good in Hg as [Hg1 Hg2]; [|exact Wg].
    apply flat_good in Hf.
    assert (Hf' : Forall (fun f => wfs (S_Parse.cfield_tokens f)) fl).
    { eapply weak; [|exact Hf]. cbn. intros a X. apply Forall_app in X. apply X. }
    pose proof (both _ _ _ fl cfield_good Wf Hf') as G.
    split; [apply Forall_app; split; [|exact Hg2]|split; [constructor|repeat (apply Forall_app; split); auto]].
    + apply flat_all. eapply weak; [|exact G]. intros a X; apply X.
    + apply flat_all. eapply weak; [|exact G]. intros a X; apply X.
  - destruct W as (Wt & _). apply Forall_app in H as [_ H]. apply Forall_app in H as [Ht H]. apply Forall_app in H as [_ H].
    apply Forall_app in H as [H _]. apply inst_good in Ht as [Ht1 Ht2]; [|exact Wt]. apply separated_good in H.
    split; [apply Forall_app; split; [exact Ht2|]|split; [constructor|repeat constructor; apply Ht1]].
    apply flat_all. eapply weak; [|exact H]. intros a X. unfold S_Parse.item_tokens in X. apply Forall_app in X as [_ X].
    apply Forall_app in X as [_ X]. now apply behind_good in X.
  - destruct W as (Wt & _). apply Forall_app in H as [_ H]. apply Forall_app in H as [Ht H]. apply Forall_app in H as [_ H].
    apply Forall_app in H as [H _]. apply inst_good in Ht as [Ht1 Ht2]; [|exact Wt]. apply separated_good in H.
    split; [apply Forall_app; split; [exact Ht2|]|split; [constructor|repeat constructor; apply Ht1]].
    apply flat_all. eapply weak; [|exact H]. intros a X. unfold S_Parse.mask_item_tokens in X. apply Forall_app in X as [_ X].
    now apply behind_good in X.
  - apply Forall_app in H as [_ H]. apply Forall_app in H as [Ht H]. apply Forall_app in H as [_ H]. apply Forall_app in H as [H _].
    apply inst_good in Ht as [Ht1 Ht2]; [|exact W]. apply expr_good in H.
    split; [apply Forall_app; split; [exact Ht2|constructor; [exact H|constructor]]|split; [constructor|constructor; [exact Ht1|constructor]]].
  - apply Forall_app in H as [_ H]. apply Forall_app in H as [Ht H]. apply type_good in Ht; [|exact W].
    split; [constructor|split; [constructor|constructor; [split; [exact Ht|discriminate]|constructor]]].
  - apply Forall_app in H as [_ H]. apply Forall_app in H as [Ht H]. apply type_good in Ht; [|exact W].
    split; [constructor|split; [constructor|constructor; [split; [exact Ht|discriminate]|constructor]]].
  - apply other_good in H as [H1 H2]; [|exact W]. split; [exact H1|split; [constructor|exact H2]].
Qed.
Lemma file_good f : P_Parse3.file_shape f -> wfs (S_Parse.file_tokens f) -> file_formed f.
Proof.
  intros (_ & Wi & Wd) H. unfold S_Parse.file_tokens in H. apply Forall_app in H as [_ H]. apply Forall_app in H as [_ H].
  apply Forall_app in H as [_ H]. apply flat_good in H. split.
  - eapply both; [|exact Wd|exact H]. exact decl_good.
  - eapply weak; [|exact Wi]. intros [[|a l] b] X E; [exact X|discriminate].
Qed.
Theorem text_formed s f : M_Lex.read_text s = M_Parse.Parsed f -> file_formed f.
Proof.
  unfold M_Lex.read_text. destruct (M_Lex.lex s) as [ts| |] eqn:E; try discriminate. intros H.
  apply P_Lex6.lex_wf in E. apply P_Parse3.parse_read in H as [<- W]. now apply file_good.
Qed.
