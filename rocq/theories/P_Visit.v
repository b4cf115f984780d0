(** Proofs about the visitor. *)
From Coq Require Import ZArith List Bool String Ascii Lia.
From Coq Require Import DecimalN DecimalString.
From Verif Require Import M_Base M_Expr M_Scope M_Templ M_Pkg M_Lit M_Visit S_Lit S_Visit P_Base P_Lit.
Import ListNotations.
Open Scope string_scope.
Open Scope list_scope.

(** ** Numbers *)

Definition ten : list ascii := ["0"; "1"; "2"; "3"; "4"; "5"; "6"; "7"; "8"; "9"]%char.
Lemma digit_ten : forall c, is_digit 10 c = true -> In c ten.
Proof.
  intros c H. assert (D : forallb (fun n => let c := ascii_of_nat n in
    implb (is_digit 10 c) (existsb (Ascii.eqb c) ten)) (seq 0 256) = true) by (vm_compute; reflexivity).
  rewrite forallb_forall in D. specialize (D (nat_of_ascii c)).
  rewrite ascii_nat_embedding in D. cbv zeta in D.
  assert (I : In (nat_of_ascii c) (seq 0 256)) by (apply in_seq; pose proof (nat_ascii_bounded c); lia).
  specialize (D I). rewrite H in D. cbn [implb] in D. apply existsb_exists in D.
  destruct D as (x & Ix & E). apply Ascii.eqb_eq in E. subst. exact Ix.
Qed.

Lemma decimal_of : forall s z, denotes TkDec s z -> (z <= 255)%Z -> decimal z = s.
Proof.
  intros s z H. inversion H as [s' D C E1 E2 | | | ]; subst. clear H. intros L.
  destruct D as [N A]. destruct s as [|a s]; [congruence|]. cbn [all_digits] in A.
  apply andb_true_iff in A as [A1 A2]. pose proof (digit_ten a A1) as Ia.
  destruct s as [|b s].
  { assert (X : forallb (fun a => String.eqb (decimal (numeral 10 (String a ""))) (String a "")) ten = true)
      by (vm_compute; reflexivity).
    rewrite forallb_forall in X. apply String.eqb_eq. exact (X a Ia). }
  assert (NZ : a <> "0"%char).
  { intros ->. destruct C as [C|C]; [discriminate|]. now apply (C (String b s)). }
  cbn [all_digits] in A2. apply andb_true_iff in A2 as [A2 A3]. pose proof (digit_ten b A2) as Ib.
  assert (Ia' : In a (tl ten)) by (destruct Ia as [E|Ia]; [congruence|exact Ia]).
  destruct s as [|c s].
  { assert (X : forallb (fun a => forallb (fun b =>
        String.eqb (decimal (numeral 10 (String a (String b "")))) (String a (String b ""))) ten) (List.tl ten) = true)
      by (vm_compute; reflexivity).
    rewrite forallb_forall in X. specialize (X a Ia'). rewrite forallb_forall in X. apply String.eqb_eq. exact (X b Ib). }
  cbn [all_digits] in A3. apply andb_true_iff in A3 as [A3 A4]. pose proof (digit_ten c A3) as Ic.
  destruct s as [|d s].
  { assert (X : forallb (fun a => forallb (fun b => forallb (fun c =>
        String.eqb (decimal (numeral 10 (String a (String b (String c "")))))
                   (String a (String b (String c "")))) ten) ten) (List.tl ten) = true)
      by (vm_compute; reflexivity).
    rewrite forallb_forall in X. specialize (X a Ia'). rewrite forallb_forall in X. specialize (X b Ib).
    rewrite forallb_forall in X. apply String.eqb_eq. exact (X c Ic). }
  exfalso.
  assert (P : (1000 <= 10 ^ Z.of_nat (String.length (String b (String c (String d s)))))%Z).
  { change 1000%Z with (10 ^ 3)%Z. apply Z.pow_le_mono_r; [lia|]. cbn [String.length]. lia. }
  destruct (is_digit_some 10 a A1) as (v & E & V).
  assert (V1 : (1 <= v)%Z).
  { destruct Ia' as [<-|[<-|[<-|[<-|[<-|[<-|[<-|[<-|[<-|[]]]]]]]]]]; cbn in E; injection E as <-; lia. }
  cbn [numeral] in L. rewrite E in L. fold (numeral 10 (String b (String c (String d s)))) in L.
  pose proof (numeral_nonneg 10 (String b (String c (String d s))) ltac:(lia)) as NN. cbn [numeral] in NN.
  nia.
Qed.

(** ** Literals *)

Lemma capital_dec : forall k s, token k s -> capital k s \/ ~ capital k s.
Proof.
  intros k s H. destruct H as [s H|k s z H|s|s m k H|s H]; try (right; intros C; inversion C; fail).
  inversion H; subst; try (right; intros C; inversion C; fail).
  - destruct H0 as [->| ->]; [right; intros C; inversion C|left; constructor].
  - destruct H0 as [->| ->]; [right|left; constructor].
    intros C. inversion C as [|t E1 E]. apply append_last in E. destruct E as [_ E]. discriminate E.
Qed.

(** Accepted exactly under a condition. *)
Definition accepts {A} (P : Prop) (r : res A) : Prop := (P /\ exists a, r = Ok a) \/ (~ P /\ r = Panic).

Lemma accepts_ret : forall {A} (a : A), accepts True (Ok a).
Proof. intros A a. left. split; [exact Logic.I|now exists a]. Qed.
Lemma accepts_iff : forall {A} (P Q : Prop) (r : res A), (P <-> Q) -> accepts P r -> accepts Q r.
Proof. intros A P Q r H [[H1 H2]|[H1 H2]]; [left|right]; tauto. Qed.
Lemma accepts_bind : forall {A B} (P Q : Prop) (r : res A) (k : A -> res B), accepts P r ->
  (forall a, r = Ok a -> accepts Q (k a)) -> accepts (P /\ Q) (do x <- r ; k x).
Proof.
  intros A B P Q r k [[H1 [a E]]|[H1 E]] H; rewrite E; cbn [bind].
  - destruct (H a E) as [[HQ E2]|[HQ E2]]; [left; tauto|right; split; [tauto|exact E2]].
  - right. split; [tauto|reflexivity].
Qed.
Lemma accepts_map : forall {A B} (P : Prop) (r : res A) (k : A -> B), accepts P r ->
  accepts P (do x <- r ; Ok (k x)).
Proof.
  intros A B P r k H. apply (accepts_iff (P /\ True)); [tauto|]. apply accepts_bind; [exact H|].
  intros. apply accepts_ret.
Qed.
Lemma accepts_mapM : forall {A B} (P : A -> Prop) (f : A -> res B) l,
  (forall a, In a l -> accepts (P a) (f a)) -> accepts (Forall P l) (mapM f l).
Proof.
  induction l as [|a l IH]; intros H; cbn [mapM].
  - apply (accepts_iff True); [split; [constructor|tauto]|apply accepts_ret].
  - apply (accepts_iff (P a /\ Forall P l)); [split; [intros []; now constructor|intros X; inversion X; tauto]|].
    apply accepts_bind; [apply H; now left|]. intros b _. apply accepts_map.
    apply IH. intros x Ix. apply H. now right.
Qed.
Lemma accepts_opt : forall {A B} (P : A -> Prop) (f : A -> res B) x,
  (forall a, x = Some a -> accepts (P a) (f a)) -> accepts (Forall P (list_of x)) (visit_opt f x).
Proof.
  intros A B P f [a|] H; cbn [visit_opt list_of].
  - apply (accepts_iff (P a)); [split; [intros; repeat constructor; assumption|intros X; now inversion X]|].
    apply accepts_map. now apply H.
  - apply (accepts_iff True); [split; [constructor|tauto]|apply accepts_ret].
Qed.

Lemma literal_accepts : forall k s, token k s -> accepts (literal_readable k s) (visit_literal k s).
Proof.
  intros k s T. pose proof (capital_dec k s T) as CD.
  destruct T as [s [->| ->]|k s z H|s|s m k H|s H].
  - left. split; [exact Logic.I|eexists; reflexivity].
  - left. split; [exact Logic.I|eexists; reflexivity].
  - assert (I : literal_readable k s <-> exists z, denotes k s z /\ (z < 2 ^ 31)%Z /\ ~ capital k s)
      by (inversion H; subst; cbn [literal_readable]; tauto).
    apply (accepts_iff (exists z, denotes k s z /\ (z < 2 ^ 31)%Z /\ ~ capital k s)); [tauto|].
    assert (R : (z < 2 ^ 31)%Z /\ ~ capital k s \/ ((2 ^ 31 <= z)%Z \/ capital k s)) by (destruct CD; lia || tauto || (destruct (Z.lt_ge_cases z (2 ^ 31)); tauto)).
    destruct R as [[L C]|R].
    + left. split; [now exists z|]. exists (LInt z). now apply literal_value.
    + right. pose proof (literal_rejected k s z H R) as E. split; [|exact E].
      intros (z' & H' & L' & C'). rewrite (literal_value k s z' H' L' C') in E. discriminate E.
  - left. split; [exact Logic.I|]. exists (LString s). exact (string_value s).
  - left. split; [exact Logic.I|]. cbn [visit_literal]. rewrite (double_parse s m k H). eexists; reflexivity.
  - right. split; [cbn; tauto|]. cbn [visit_literal]. rewrite (float_rejected s H). reflexivity.
Qed.

Lemma literal_meaning : forall k s l, token k s -> visit_literal k s = Ok l -> literal_is k s l.
Proof.
  intros k s l T E. destruct T as [s [->| ->]|k s z H|s|s m k H|s H].
  - apply ok_inj in E. subst. constructor.
  - apply ok_inj in E. subst. constructor.
  - destruct (visit_literal_int k s z l H E) as (-> & _). now constructor.
  - rewrite string_value in E. apply ok_inj in E. subst. constructor.
  - cbn [visit_literal] in E. rewrite (double_parse s m k H) in E. apply ok_inj in E. subst. now constructor.
  - cbn [visit_literal] in E. rewrite (float_rejected s H) in E. discriminate E.
Qed.
Lemma literal_is_value : forall k s l, literal_is k s l -> literal_readable k s -> visit_literal k s = Ok l.
Proof.
  intros k s l H R. destruct H as [ | |k s z H|s|s m k H].
  - reflexivity.
  - reflexivity.
  - assert (I : exists z, denotes k s z /\ (z < 2 ^ 31)%Z /\ ~ capital k s)
      by (inversion H; subst; exact R).
    destruct I as (z' & H' & L' & C').
    destruct (Z.lt_ge_cases z (2 ^ 31)) as [L|L]; [now apply literal_value|].
    pose proof (literal_rejected k s z H (or_introl L)) as E.
    rewrite (literal_value k s z' H' L' C') in E. discriminate E.
  - exact (string_value s).
  - cbn [visit_literal]. rewrite (double_parse s m k H). reflexivity.
Qed.
Lemma literal_is_token : forall k s l, literal_is k s l -> token k s.
Proof.
  intros k s l H. destruct H.
  - apply TokBool. now left.
  - apply TokBool. now right.
  - now apply TokInt with z.
  - apply TokStr.
  - now apply TokDouble with m k.
Qed.

(** ** Expressions *)

Ltac bind_in H :=
  let a := fresh "n" in let E := fresh "E" in
  apply bind_ok in H; destruct H as (a & E & H).

Lemma forall_app : forall {A} (P : A -> Prop) l l', Forall P (l ++ l') <-> Forall P l /\ Forall P l'.
Proof. intros. apply Forall_app. Qed.

Lemma accepts_app : forall {A B} (P : A -> Prop) l l' (r : res B),
  accepts (Forall P l /\ Forall P l') r -> accepts (Forall P (l ++ l')) r.
Proof. intros A B P l l' r. apply accepts_iff. symmetry. apply Forall_app. Qed.
Lemma expr_accepts : forall t, expr_formed t -> accepts (expr_readable t) (visit_expr t).
Proof.
  unfold expr_formed, expr_readable.
  induction t; cbn [literals_of visit_expr]; intros F; rewrite ?forall_app in F;
    try apply accepts_app;
    repeat match goal with
    | H : _ /\ _ |- _ => destruct H
    | H : Forall _ _ -> accepts _ _, K : Forall _ _ |- _ => specialize (H K)
    end;
    try (apply accepts_map; assumption);
    try (apply accepts_bind; [assumption|intros; apply accepts_map; assumption]).
  - apply accepts_bind; [assumption|]. intros x _.
    destruct o; cbn [binop_token]; apply accepts_map; assumption.
  - apply accepts_bind; [assumption|]. intros x _. apply accepts_app. apply accepts_bind; [assumption|]. intros y _.
    now apply accepts_map.
  - inversion F; subst. apply (accepts_iff (literal_readable k s)).
    { split; [intros; repeat constructor; assumption|intros X; now inversion X]. }
    apply accepts_map. now apply literal_accepts.
  - apply (accepts_iff True); [split; [constructor|tauto]|apply accepts_ret].
  - apply (accepts_iff True); [split; [constructor|tauto]|apply accepts_ret].
Qed.

(** The expression a node is taken for is that of the tree. *)
Lemma expr_says : forall t n, expr_formed t -> visit_expr t = Ok n -> exists e, read n = Some e /\ says t e.
Proof.
  unfold expr_formed.
  induction t; cbn [literals_of visit_expr]; intros n F E; rewrite ?forall_app in F;
    repeat match goal with H : _ /\ _ |- _ => destruct H end;
    repeat (bind_in E);
    repeat match goal with
    | H : forall n, Forall _ (literals_of ?t) -> visit_expr ?t = Ok n -> _, K : Forall _ (literals_of ?t),
      V : visit_expr ?t = Ok _ |- _ => destruct (H _ K V) as (? & ? & ?); clear H
    end;
    try (apply ok_inj in E; subst n; cbn; repeat match goal with H : read _ = Some _ |- _ => rewrite H end;
         cbn [option_map]; eexists; split; [reflexivity|constructor; assumption]).
  - destruct o; cbn [unop_token fst snd] in E; apply ok_inj in E; subst n; cbn;
      match goal with H : read _ = Some _ |- _ => rewrite H end; cbn [option_map];
      eexists; (split; [reflexivity|constructor; assumption]).
  - destruct o; cbn [binop_token] in E; apply ok_inj in E; subst n; cbn;
      repeat match goal with H : read _ = Some _ |- _ => rewrite H end;
      eexists; (split; [reflexivity|constructor; assumption]).
  - apply ok_inj in E. subst n. inversion F; subst. cbn. eexists. split; [reflexivity|]. constructor.
    now apply literal_meaning.
Qed.
Lemma says_expr : forall t e, says t e -> expr_readable t -> exists n, visit_expr t = Ok n /\ read n = Some e.
Proof.
  unfold expr_readable.
  intros t e S. induction S; cbn [literals_of visit_expr]; intros F; rewrite ?forall_app in F;
    repeat match goal with H : _ /\ _ |- _ => destruct H end;
    repeat match goal with
    | H : Forall _ ?l -> _, K : Forall _ ?l |- _ => destruct (H K) as (? & ? & ?); clear H
    end;
    repeat match goal with H : visit_expr _ = Ok _ |- _ => rewrite H end; cbn [bind];
    try (eexists; split; [reflexivity|cbn; repeat match goal with H : read _ = Some _ |- _ => rewrite H end; reflexivity]).
  - destruct o; eexists; (split; [reflexivity|cbn; match goal with H : read _ = Some _ |- _ => rewrite H end; reflexivity]).
  - destruct o; cbn [binop_token]; eexists; (split; [reflexivity|cbn; repeat match goal with H : read _ = Some _ |- _ => rewrite H end; reflexivity]).
  - inversion F; subst. rewrite (literal_is_value k s l H) by assumption. cbn [bind].
    eexists. split; reflexivity.
Qed.
Lemma says_formed : forall t e, says t e -> expr_formed t.
Proof.
  unfold expr_formed. intros t e S.
  induction S; cbn [literals_of]; rewrite ?forall_app; auto.
  repeat constructor. cbn. now apply literal_is_token with l.
Qed.

(** Its text is that of the tree. *)
Lemma expr_shown : forall t n, visit_expr t = Ok n -> show n = expr_text t.
Proof.
  induction t; cbn [visit_expr expr_text]; intros n E;
    repeat (bind_in E);
    repeat match goal with
    | H : forall n, visit_expr ?t = Ok n -> _, V : visit_expr ?t = Ok _ |- _ => specialize (H _ V)
    end;
    try (apply ok_inj in E; subst n; cbn; repeat match goal with H : show _ = _ |- _ => rewrite H end; reflexivity).
  - destruct o; cbn [unop_token fst snd] in E; apply ok_inj in E; subst n; cbn;
      match goal with H : show _ = _ |- _ => rewrite H end; reflexivity.
  - destruct o; cbn [binop_token] in E; apply ok_inj in E; subst n; cbn;
      repeat match goal with H : show _ = _ |- _ => rewrite H end; reflexivity.
  - apply ok_inj in E. subst n. destruct k; reflexivity.
Qed.
(** The type noted for a literal is that of its evaluation. *)
Lemma literal_noted : forall b fuel S k s n e r, visit_expr (PLit k s) = Ok n -> read n = Some e ->
  eval b fuel S e = Ok r -> match n with Node _ _ _ _ _ _ _ nt done => done = e_full r /\ nt = e_nt r end.
Proof.
  intros b fuel S k s n e r V R E. cbn [visit_expr] in V. bind_in V. apply ok_inj in V. subst n.
  cbn in R. injection R as <-.
  destruct k; cbn [visit_literal] in E0;
  repeat match type of E0 with (if ?c then _ else _) = _ => destruct c end; try discriminate E0;
  try (destruct (i32_from_str_radix _ _); cbn in E0; try discriminate E0);
  try (destruct (parse_f64 _); cbn in E0; try discriminate E0);
  apply ok_inj in E0; subst; destruct fuel; cbn in E; try discriminate E; apply ok_inj in E; subst r; split; reflexivity.
Qed.
