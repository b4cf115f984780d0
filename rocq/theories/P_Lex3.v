(** Proofs for C73: no rule matches more than the text of a token, and none before its own
    rule matches that. *)
From Coq Require Import List Bool String Ascii Arith Lia.
From Verif Require Import M_Lit M_Visit M_Parse M_Lex S_Lex P_Lex P_Lex2.
Import ListNotations.
Local Open Scope string_scope.

(** ** Decidable classes *)

Ltac nope H := solve [apply (proj2 (within_iff _ _)) in H; discriminate H].
Lemma digit_alnum c : Digit c -> Alnum c. Proof. right; auto. Qed.
Lemma one_sub a b : forallb (fun c => within b c) (la a) = true -> forall c, one_char a c -> one_char b c.
Proof. rewrite forallb_forall. intros H c Hc. apply within_iff, H; auto. Qed.
Lemma alnum_b c : Alnum c <-> letter c || digit c = true. Proof. symmetry; apply alnum_iff. Qed.
Lemma alnum_dec c : Alnum c \/ ~ Alnum c.
Proof. rewrite <- alnum_iff. destruct (letter c || digit c); auto. Qed.

Lemma every_app P a b : every P (a ++ b) <-> every P a /\ every P b.
Proof. unfold every. rewrite la_app, Forall_app; reflexivity. Qed.
Lemma every_cons P c s : every P (String c s) <-> P c /\ every P s.
Proof. unfold every. cbn. split; [intros H; inv H; auto|intros []; constructor; auto]. Qed.
Lemma every_impl (P Q : ascii -> Prop) s : (forall c, P c -> Q c) -> every P s -> every Q s.
Proof. intros H; apply Forall_impl; auto. Qed.
Lemma every_nil P : every P "". Proof. constructor. Qed.
Lemma some_head P s : some_text P s -> exists c tl, s = String c tl /\ P c /\ every P tl.
Proof. intros [H1 H2]. destruct s as [|c tl]; [congruence|]. apply every_cons in H2 as []; eauto. Qed.

(** A character inside a concatenation. *)
Lemma mid_app (p a b : string) c q : p ++ String c q = a ++ b ->
  (exists x, a = p ++ String c x /\ q = x ++ b) \/ (exists x, p = a ++ x /\ b = x ++ String c q).
Proof.
  revert a. induction p as [|d p IH]; intros a H.
  - destruct a as [|e a]; cbn in H.
    + right. exists "". subst; auto.
    + injection H as <- ->. left. exists a; auto.
  - destruct a as [|e a]; cbn in H.
    + right. exists (String d p). split; auto.
    + injection H as <- H. apply IH in H as [(x & -> & ->)|(x & -> & ->)]; [left|right]; exists x; auto.
Qed.
Lemma every_mid P p c q : every P (p ++ String c q) -> P c.
Proof. rewrite every_app, every_cons; tauto. Qed.

(** ** Numbers with a point or an exponent *)

Definition DP (c : ascii) : Prop := Digit c \/ c = "."%char.
Definition ee : list string := ["e"; "E"].
Definition inside (p : string) (c : ascii) : Prop :=
  (c = "."%char /\ every Digit p)
  \/ (one_char "+-" c /\ exists p' e, p = p' ++ e /\ In e ee /\ p' <> "" /\ every DP p').

Lemma ee_alnum e : In e ee -> every Alnum e /\ ~ every Digit e /\ ~ every DP e /\ exists c, e = String c "".
Proof.
  intros [<-|[<-|[]]].
  all: split; [constructor; [apply alnum_iff; reflexivity|constructor]|].
  all: split; [intros H; apply every_cons in H as [H _]; nope H|].
  all: split; [intros H; apply every_cons in H as [[H|H] _]; [nope H|discriminate]|eauto].
Qed.
Lemma exponent_inside s p c q : s <> "" -> every DP s -> forall e, exponent_text e -> p ++ String c q = e -> ~ Alnum c ->
  inside (s ++ p) c.
Proof.
  intros Hn Hs e (x & sg & d & -> & Hx & Hsg & Hd & Hd2) E N.
  destruct (ee_alnum _ Hx) as (X1 & X2 & X3 & c0 & ->).
  apply mid_app in E as [(y & E & _)|(y & -> & E)].
  - exfalso. apply N. apply (every_mid Alnum p c y). rewrite <- E; auto.
  - symmetry in E. apply mid_app in E as [(z & E & _)|(z & -> & E)].
    + right. destruct Hsg as [<-|[<-|[<-|[]]]]; destruct y; try discriminate E; injection E as <- E; try (destruct y; discriminate).
      all: split; [apply within_iff; reflexivity|]; exists s, (String c0 ""); auto.
    + exfalso. apply N, digit_alnum. apply (every_mid Digit z c q). rewrite <- E; auto.
Qed.
Lemma double_inside u p c q : double_text u -> u = p ++ String c q -> ~ Alnum c -> inside p c.
Proof.
  intros H E N. destruct H as [(d & e & -> & [Hd0 Hd] & He)|[(d & f & e & -> & [Hd0 Hd] & Hf & He)|(f & e & -> & [Hf0 Hf] & He)]].
  - symmetry in E. apply mid_app in E as [(x & -> & _)|(x & -> & E)].
    + exfalso; apply N, digit_alnum, (every_mid Digit _ _ _ Hd).
    + apply (exponent_inside d x c q) with (e := e); auto. revert Hd; apply every_impl; left; auto.
  - symmetry in E. apply mid_app in E as [(x & -> & _)|(x & -> & E)].
    + exfalso; apply N, digit_alnum, (every_mid Digit _ _ _ Hd).
    + symmetry in E. apply mid_app in E as [(y & E & _)|(y & -> & E)].
      * destruct x; [|destruct x; discriminate]. injection E as <- _. left; split; auto. rewrite app_nil; auto.
      * symmetry in E. apply mid_app in E as [(z & -> & _)|(z & -> & E)].
        -- exfalso; apply N, digit_alnum, (every_mid Digit _ _ _ Hf).
        -- destruct He as [->|He]; [destruct z; discriminate|].
           replace (d ++ "." ++ f ++ z) with ((d ++ "." ++ f) ++ z) by (rewrite !app_ass; auto).
           apply (exponent_inside _ z c q) with (e := e); auto.
           ++ destruct d; [congruence|discriminate].
           ++ rewrite !every_app. split; [revert Hd; apply every_impl; left; auto|split].
              ** constructor; [right; auto|constructor].
              ** revert Hf; apply every_impl; left; auto.
  - symmetry in E. apply mid_app in E as [(x & E & _)|(x & -> & E)].
    + destruct p; [|destruct p; discriminate]. injection E as <- _. left; split; [auto|constructor].
    + symmetry in E. apply mid_app in E as [(z & -> & _)|(z & -> & E)].
      * exfalso; apply N, digit_alnum, (every_mid Digit _ _ _ Hf).
      * destruct He as [->|He]; [destruct z; discriminate|].
        replace ("." ++ f ++ z) with (("." ++ f) ++ z) by (rewrite !app_ass; auto).
        apply (exponent_inside _ z c q) with (e := e); auto; [discriminate|].
        rewrite !every_app. split; [constructor; [right; auto|constructor]|]. revert Hf; apply every_impl; left; auto.
Qed.
Lemma ff_alnum f : In f ["f"; "F"] -> every Alnum f.
Proof. intros [<-|[<-|[]]]; (constructor; [apply alnum_iff; reflexivity|constructor]). Qed.
Lemma float_inside u p c q : float_text u -> u = p ++ String c q -> ~ Alnum c -> inside p c.
Proof.
  intros (d & f & -> & Hd & Hf) E N. symmetry in E. apply mid_app in E as [(x & -> & _)|(x & -> & E)].
  - exact (double_inside _ _ _ _ Hd eq_refl N).
  - exfalso. apply N. apply (every_mid Alnum x c q). rewrite <- E. apply ff_alnum; auto.
Qed.

(** The last character. *)
Lemma last_app a x b y : a ++ String x "" = b ++ String y "" -> a = b /\ x = y.
Proof.
  intros H. assert (la (a ++ String x "") = la (b ++ String y "")) as E by congruence.
  rewrite !la_app in E. apply app_inj_tail in E as [E ->]. apply la_inj in E; auto.
Qed.
Lemma some_last P s : some_text P s -> exists a c, s = a ++ String c "" /\ P c /\ every P a.
Proof.
  intros [H1 H2]. destruct (@exists_last _ (la s)) as (l & c & E); [intros E; apply H1, la_inj; auto|].
  apply la_split in E as (a & b & -> & <- & Hb). assert (b = String c "") as -> by (apply la_inj; auto).
  apply every_app in H2 as [H2 H3]. apply every_cons in H3 as [H3 _]. eauto.
Qed.
Lemma app_last (a b : string) c : exists x, a ++ b ++ String c "" = x ++ String c "".
Proof. exists (a ++ b). rewrite app_ass; auto. Qed.
Lemma exponent_last e : exponent_text e -> exists a c, e = a ++ String c "" /\ Digit c.
Proof.
  intros (x & sg & d & -> & _ & _ & Hd). apply some_last in Hd as (a & c & -> & Hc & _).
  exists (x ++ sg ++ a), c. rewrite !app_ass; auto.
Qed.
Lemma double_last u : double_text u -> exists a c, u = a ++ String c "" /\ DP c.
Proof.
  assert (O : forall s e, (exists a c, s = a ++ String c "" /\ DP c) -> e = "" \/ exponent_text e ->
             exists a c, s ++ e = a ++ String c "" /\ DP c).
  { intros s e Hs [->|He]; [rewrite app_nil; auto|]. apply exponent_last in He as (a & c & -> & Hc).
    exists (s ++ a), c. rewrite app_ass. split; [auto|left; auto]. }
  intros [(d & e & -> & Hd & He)|[(d & f & e & -> & Hd & Hf & He)|(f & e & -> & Hf & He)]].
  - apply O; auto. apply some_last in Hd as (a & c & -> & Hc & _). exists a, c; split; auto; left; auto.
  - replace (d ++ "." ++ f ++ e) with ((d ++ "." ++ f) ++ e) by (rewrite !app_ass; auto). apply O; auto.
    destruct f as [|c f].
    + exists d, "."%char. split; auto. right; auto.
    + assert (some_text Digit (String c f)) as (a & z & E & Hz & _)%some_last by (split; [discriminate|auto]).
      rewrite E. exists (d ++ "." ++ a), z. rewrite !app_ass. split; auto; left; auto.
  - replace ("." ++ f ++ e) with (("." ++ f) ++ e) by (rewrite !app_ass; auto). apply O; auto.
    apply some_last in Hf as (a & c & -> & Hc & _). exists ("." ++ a), c; rewrite app_ass; split; auto; left; auto.
Qed.
Lemma exponent_not_digits e : exponent_text e -> ~ every Digit e.
Proof.
  intros (x & sg & d & -> & Hx & _ & _) H. apply every_app in H as [H _]. destruct (ee_alnum _ Hx) as (_ & N & _). auto.
Qed.
Lemma point_not_digit : ~ every Digit ".".
Proof. intros H; apply every_cons in H as [H _]; nope H. Qed.
Lemma double_not_digits u : double_text u -> ~ every Digit u.
Proof.
  intros [(d & e & -> & Hd & He)|[(d & f & e & -> & Hd & Hf & He)|(f & e & -> & Hf & He)]] H.
  - apply every_app in H as [_ H]. exact (exponent_not_digits _ He H).
  - apply every_app in H as [_ H]. apply every_app in H as [H _]. exact (point_not_digit H).
  - apply every_app in H as [H _]. exact (point_not_digit H).
Qed.
(** The first character. *)
Lemma double_head u : double_text u -> exists c x, u = String c x /\ DP c.
Proof.
  intros [(d & e & -> & Hd & He)|[(d & f & e & -> & Hd & Hf & He)|(f & e & -> & Hf & He)]].
  - apply some_head in Hd as (c & tl & -> & Hc & _). exists c, (tl ++ e); split; auto; left; auto.
  - apply some_head in Hd as (c & tl & -> & Hc & _). exists c, (tl ++ "." ++ f ++ e); split; auto; left; auto.
  - exists "."%char, (f ++ e); split; auto; right; auto.
Qed.
Lemma float_head u : float_text u -> exists c x, u = String c x /\ DP c.
Proof.
  intros (d & f & -> & Hd & _). apply double_head in Hd as (c & x & -> & Hc). exists c, (x ++ f); auto.
Qed.
(** A point at the start is followed by a digit. *)
Lemma double_point x : double_text (String "." x) -> exists c y, x = String c y /\ Digit c.
Proof.
  intros [(d & e & E & Hd & He)|[(d & f & e & E & Hd & Hf & He)|(f & e & E & Hf & He)]].
  - apply some_head in Hd as (c & tl & -> & Hc & _). injection E as <- _. nope Hc.
  - apply some_head in Hd as (c & tl & -> & Hc & _). injection E as <- _. nope Hc.
  - apply some_head in Hf as (c & tl & -> & Hc & _). injection E as ->. exists c, (tl ++ e); auto.
Qed.
Lemma float_point x : float_text (String "." x) -> exists c y, x = String c y /\ Digit c.
Proof.
  intros (d & f & E & Hd & Hf). pose proof (double_head _ Hd) as (c & y & -> & _). injection E as <- ->.
  apply double_point in Hd as (c & z & -> & Hc). exists c, (z ++ f); auto.
Qed.
(** No [x]. *)
Definition DE (c : ascii) : Prop := one_char "0123456789eE.+-" c.
Lemma digit_DE c : Digit c -> DE c. Proof. apply one_sub; reflexivity. Qed.
Lemma exponent_DE e : exponent_text e -> every DE e.
Proof.
  intros (x & sg & d & -> & Hx & Hs & _ & Hd). rewrite !every_app. split; [|split].
  - destruct Hx as [<-|[<-|[]]]; (constructor; [apply within_iff; reflexivity|constructor]).
  - destruct Hs as [<-|[<-|[<-|[]]]]; [constructor| |]; (constructor; [apply within_iff; reflexivity|constructor]).
  - revert Hd; apply every_impl, digit_DE.
Qed.
Lemma double_DE u : double_text u -> every DE u.
Proof.
  assert (P : every DE ".") by (constructor; [apply within_iff; reflexivity|constructor]).
  assert (Q : forall e, e = "" \/ exponent_text e -> every DE e) by (intros e [->|H]; [constructor|apply exponent_DE; auto]).
  intros [(d & e & -> & [_ Hd] & He)|[(d & f & e & -> & [_ Hd] & Hf & He)|(f & e & -> & [_ Hf] & He)]]; rewrite !every_app.
  - split; [revert Hd; apply every_impl, digit_DE|apply exponent_DE; auto].
  - split; [revert Hd; apply every_impl, digit_DE|split; [auto|split; [revert Hf; apply every_impl, digit_DE|auto]]].
  - split; [auto|split; [revert Hf; apply every_impl, digit_DE|auto]].
Qed.

(** ** Literals *)

Lemma dec_digits s : decimal_text s -> some_text Digit s.
Proof.
  intros [->|(c & tl & -> & H1 & _ & H2)].
  - split; [discriminate|]. constructor; [apply within_iff; reflexivity|constructor].
  - split; [discriminate|]. apply every_cons; auto.
Qed.
Lemma oct_digits s : octal_text s -> some_text Digit s.
Proof.
  intros (d & -> & _ & H). split; [discriminate|]. cbn [append]. apply every_cons. split; [apply within_iff; reflexivity|].
  revert H. apply every_impl, one_sub; reflexivity.
Qed.
Lemma hex_alnum c : Hex c -> Alnum c.
Proof.
  intros H. apply alnum_iff. apply within_iff in H. revert c H.
  assert (Q : forall c, implb (within "0123456789abcdefABCDEF" c) (letter c || digit c) = true) by chars.
  intros c H. specialize (Q c). rewrite H in Q; exact Q.
Qed.
Lemma bits_digits d : every (one_char "01") d -> every Digit d.
Proof. apply every_impl, one_sub; reflexivity. Qed.
Lemma bin_alnum s : binary_text s -> some_text Alnum s.
Proof.
  intros (d & b & -> & Hb & [Hn Hd]). split; [destruct d; [congruence|discriminate]|].
  apply every_app. split; [apply bits_digits in Hd; revert Hd; apply every_impl, digit_alnum|].
  destruct Hb as [<-|[<-|[]]]; (constructor; [apply alnum_iff; reflexivity|constructor]).
Qed.
Lemma hexlit_alnum s : hex_text s -> some_text Alnum s.
Proof.
  intros (x & d & -> & Hx & [_ Hd]). split; [discriminate|]. rewrite !every_app.
  split; [constructor; [apply alnum_iff; reflexivity|constructor]|split].
  - destruct Hx as [<-|[<-|[]]]; (constructor; [apply alnum_iff; reflexivity|constructor]).
  - revert Hd; apply every_impl, hex_alnum.
Qed.
Lemma digits_alnum s : some_text Digit s -> some_text Alnum s.
Proof. intros [H1 H2]. split; auto. revert H2; apply every_impl, digit_alnum. Qed.
Lemma bool_alnum s : s = "true" \/ s = "false" -> some_text Alnum s.
Proof.
  intros [->| ->]; (split; [discriminate|]); apply Forall_forall; intros c H; apply alnum_iff.
  all: cbn in H; decompose [or] H; subst; try tauto; reflexivity.
Qed.

(** ** Words *)

Definition words : list string := (operators ++ keywords)%list.
Definition alnumb (c : ascii) : bool := letter c || digit c.
(** Which characters must not follow a word. *)
Definition clash (s : string) (c : ascii) : bool :=
  (existsb (String.eqb s) keywords && alnumb c)
  || (String.eqb s "." && digit c)
  || (existsb (String.eqb s) ["="; "<"; ">"; "!"] && is c "=")
  || (String.eqb s "<" && is c "<") || (String.eqb s "&" && is c "&") || (String.eqb s "|" && is c "|")
  || (String.eqb s "/" && (is c "/" || is c "*")).
Lemma in_b s l : existsb (String.eqb s) l = true -> In s l.
Proof. rewrite existsb_exists. intros (x & H & E). apply String.eqb_eq in E as ->; auto. Qed.
Lemma follow_clash s c : may_follow (K s) c -> clash s c = false.
Proof.
  intros (H1 & H2 & H3 & H4 & H5 & H6 & H7).
  destruct (clash s c) eqn:E; [exfalso|auto]. unfold clash in E. rewrite !orb_true_iff, !andb_true_iff in E.
  rewrite !orb_true_iff in E. unfold alnumb in E. rewrite alnum_iff, digit_iff, !is_iff, !String.eqb_eq in E.
  destruct E as [[[[[[[E1 E2]|[E1 E2]]|[E1 E2]]|[E1 E2]]|[E1 E2]]|[E1 E2]]|[E1 E2]].
  - apply H1; auto. change keyword_texts with keywords. apply in_b; auto.
  - apply H2; auto.
  - apply H3; auto. apply in_b; auto.
  - apply H4; auto.
  - apply H5; auto.
  - apply H6; auto.
  - destruct (H7 E1). destruct E2; auto.
Qed.
Fixpoint strip (x y : string) : string :=
  match x, y with
  | "", _ => y
  | String a x, String b y => if Ascii.eqb a b then strip x y else ""
  | _, _ => ""
  end.
Lemma strip_app x y : strip x (x ++ y) = y.
Proof. induction x as [|a x IH]; cbn; [auto|]. rewrite Ascii.eqb_refl; auto. Qed.
Lemma words_clash : forallb (fun x => forallb (fun y =>
    match strip x y with String c _ => clash x c | "" => true end) words) words = true.
Proof. vm_compute; reflexivity. Qed.
Lemma word_longer x c u : In x words -> In (x ++ String c u) words -> clash x c = true.
Proof.
  intros Hx Hy. pose proof words_clash as H. rewrite forallb_forall in H. specialize (H x Hx).
  rewrite forallb_forall in H. specialize (H _ Hy). rewrite strip_app in H; auto.
Qed.
(** The characters of words: a keyword has letters and digits, or starts with [@]; an operator has none. *)
Definition word_ok (s : string) : bool :=
  match s with
  | "" => false
  | String h tl => (forallb alnumb (la s) && letter h) || (is h "@" && forallb alnumb (la tl) && negb (String.eqb tl ""))
                   || (forallb (fun c => negb (alnumb c) && within "&=!:,/.>{[<|(-%*+?}]);~^" c) (la s) && Nat.leb (String.length s) 2)
  end.
Lemma words_ok : forallb word_ok words = true.
Proof. vm_compute; reflexivity. Qed.
Lemma word_cases s : In s words ->
  (exists h tl, s = String h tl /\ Letter h /\ every Alnum s)
  \/ (exists tl, s = String "@" tl /\ every Alnum tl)
  \/ (exists h tl, s = String h tl /\ one_char "&=!:,/.>{[<|(-%*+?}]);~^" h /\ every (fun c => ~ Alnum c) s).
Proof.
  intros H. pose proof words_ok as W. rewrite forallb_forall in W. specialize (W s H).
  destruct s as [|h tl]; [discriminate|]. unfold word_ok in W. rewrite !orb_true_iff, !andb_true_iff in W.
  destruct W as [[[W1 W2]|[[W1 W2] _]]|[W1 _]].
  - left. exists h, tl. split; [auto|split; [apply letter_iff; auto|]].
    unfold every. rewrite forallb_forall in W1. apply Forall_forall. intros c Hc. apply alnum_iff, W1; auto.
  - right; left. apply is_iff in W1 as ->. exists tl. split; auto.
    unfold every. rewrite forallb_forall in W2. apply Forall_forall. intros c Hc. apply alnum_iff, W2; auto.
  - right; right. exists h, tl. rewrite forallb_forall in W1. split; [auto|split].
    + apply within_iff. specialize (W1 h (or_introl eq_refl)). apply andb_true_iff in W1 as [_ W1]; auto.
    + apply Forall_forall. intros c Hc. specialize (W1 c Hc). apply andb_true_iff in W1 as [W1 _].
      apply negb_true_iff in W1. rewrite <- alnum_iff. unfold alnumb in W1. congruence.
Qed.

(** ** What the rules match *)

Inductive class (u : string) : Prop :=
| ClWord : In u words -> class u
| ClSpace c : u = String c "" -> space c -> class u
| ClBlock x : u = "/*" ++ x -> class u
| ClLine x : u = "//" ++ x -> every (fun c => ~ line_end c) x -> class u
| ClString : string_text u -> class u
| ClBadString x q : u = quot ++ x ++ q -> every (fun c => String c "" <> quot) x -> q = "" \/ q = quot -> class u
| ClAlnum : some_text Alnum u -> class u
| ClDouble : double_text u -> class u
| ClFloat : float_text u -> class u.

Lemma word_rx x u : matches (r_rx (word_rule x)) (la u) -> u = x.
Proof. cbn. apply sm_lit. Qed.
Definition others : list rule :=
  [Rule TSkip false ws; Rule TSkip true doc_comment; Rule TSkip true markdown_comment;
   Rule TSkip true block_comment; Rule TSkip false line_comment;
   Rule (TLit TkBool) false bool_literal; Rule (TLit TkStr) false string_literal;
   Rule (TLit TkBin) false binary_literal; Rule (TLit TkOct) false octal_literal;
   Rule (TLit TkHex) false hexadecimal_literal; Rule (TLit TkDouble) false double_literal;
   Rule (TLit TkFloat) false float_literal; Rule (TLit TkDec) false decimal_literal;
   Rule TName false id; Rule TBad false invalid_string_literal; Rule TBad false invalid_token].
Lemma rules_eq : rules = (map word_rule words ++ others)%list.
Proof. unfold words. rewrite map_app, <- app_assoc. reflexivity. Qed.
Lemma name_alnum s : (exists c tl, s = String c tl /\ Letter c /\ every Alnum tl) -> some_text Alnum s.
Proof. intros (c & tl & -> & H1 & H2). split; [discriminate|]. apply every_cons; split; [left|]; auto. Qed.
Lemma classify r u : In r rules -> matches (r_rx r) (la u) -> class u.
Proof.
  rewrite rules_eq. intros Hr H. apply in_app_or in Hr as [Hr|Hr].
  - apply in_map_iff in Hr as (x & <- & Hx). apply word_rx in H as ->. apply ClWord; auto.
  - unfold others in Hr. cbn [In] in Hr.
    destruct Hr as [<-|[<-|[<-|[<-|[<-|[<-|[<-|[<-|[<-|[<-|[<-|[<-|[<-|[<-|[<-|[<-|[]]]]]]]]]]]]]]]]]; cbn [r_rx] in H.
    + apply rx_ws in H as (c & -> & Hc). eapply ClSpace; eauto.
    + apply rx_block in H as (x & ->). apply (ClBlock _ ("*" ++ x ++ "*/")). reflexivity.
    + apply rx_markdown in H as (x & ->). apply (ClBlock _ ("!" ++ x ++ "*/")). reflexivity.
    + apply rx_block in H as (x & ->). apply (ClBlock _ (x ++ "*/")). reflexivity.
    + apply rx_line in H as (x & -> & Hx). apply (ClLine _ x); auto.
    + apply rx_bool in H. apply ClAlnum, bool_alnum; auto.
    + apply rx_string in H. apply ClString; auto.
    + apply rx_binary in H. apply ClAlnum, bin_alnum; auto.
    + apply rx_octal in H. apply ClAlnum, digits_alnum, oct_digits; auto.
    + apply rx_hex in H. apply ClAlnum, hexlit_alnum; auto.
    + apply rx_double in H. apply ClDouble; auto.
    + apply rx_float in H. apply ClFloat; auto.
    + apply rx_decimal in H. apply ClAlnum, digits_alnum, dec_digits; auto.
    + apply rx_name in H. apply ClAlnum, name_alnum; auto.
    + apply rx_invalid_string in H as (x & q & -> & H1 & H2). eapply ClBadString; eauto.
    + apply rx_invalid in H. apply ClAlnum; auto.
Qed.

(** ** Nothing longer *)

Lemma space_not h : space h -> ~ Alnum h /\ h <> "/"%char /\ h <> "@"%char /\ h <> "."%char /\ String h "" <> quot.
Proof.
  intros [->|[->|H]]; [..|cbn in H; destruct H as [<-|[<-|[<-|[]]]]].
  all: split; [rewrite <- alnum_iff; discriminate|repeat split; discriminate].
Qed.
Lemma alnum_not h : Alnum h -> h <> "/"%char /\ h <> "@"%char /\ h <> "."%char /\ String h "" <> quot.
Proof.
  rewrite <- alnum_iff. intros H. repeat split; intros E; try subst h; try discriminate H.
  injection E as ->; discriminate H.
Qed.
(** A text of letters and digits. *)
Lemma longer_alnum w c u : some_text Alnum w -> ~ Alnum c ->
  (c = "."%char -> ~ every Digit w) ->
  (forall p e, w = p ++ e -> In e ee -> p <> "" -> every DP p -> False) ->
  ~ class (w ++ String c u).
Proof.
  intros Hw Hc Hp He H. pose proof (some_head _ _ Hw) as (h & tl & -> & Hh & _).
  destruct (alnum_not _ Hh) as (N1 & N2 & N3 & N4).
  inversion H as [W|d E D|x E|x E _|W|x q E _ _|W|W|W].
  - apply word_cases in W as [(? & ? & E & _ & W)|[(? & E & _)|(? & ? & E & _ & W)]].
    + apply Hc. exact (every_mid _ _ _ _ W).
    + injection E; congruence.
    + apply every_cons in W as [W _]; auto.
  - destruct tl; discriminate E.
  - injection E; congruence.
  - injection E; congruence.
  - destruct W as (l & E & _). apply N4. cbn in E. injection E as -> _; reflexivity.
  - apply N4. cbn in E. injection E as -> _; reflexivity.
  - apply Hc. destruct W as [_ W]. exact (every_mid _ _ _ _ W).
  - destruct (double_inside _ _ _ _ W eq_refl Hc) as [[-> Q]|(_ & p & e & E & Q1 & Q2 & Q3)]; [apply Hp; auto|eauto].
  - destruct (float_inside _ _ _ _ W eq_refl Hc) as [[-> Q]|(_ & p & e & E & Q1 & Q2 & Q3)]; [apply Hp; auto|eauto].
Qed.
Lemma letter_DP h : Letter h -> ~ DP h.
Proof.
  intros H [D|D].
  - assert (Q : forall c, within "abcdefghijklmnopqrstuvwxyzABCDEFGHIJKLMNOPQRSTUVWXYZ_" c && within "0123456789" c = false) by chars.
    specialize (Q h). rewrite (proj2 (within_iff _ _) H), (proj2 (within_iff _ _) D) in Q. discriminate.
  - subst. nope H.
Qed.
Lemma letter_longer w c u : (exists h tl, w = String h tl /\ Letter h) -> every Alnum w -> ~ Alnum c -> ~ class (w ++ String c u).
Proof.
  intros (h & tl & -> & Hh) Hw Hc. apply longer_alnum; auto.
  - split; [discriminate|auto].
  - intros _ D. apply every_cons in D as [D _]. apply (letter_DP h Hh); left; auto.
  - intros [|d p] e E He Hp D; [congruence|]. injection E as -> ->. apply every_cons in D as [D _].
    exact (letter_DP d Hh D).
Qed.
Lemma ee_digits p e w : w = p ++ e -> In e ee -> every Digit w -> False.
Proof.
  intros -> He H. apply every_app in H as [_ H]. destruct (ee_alnum _ He) as (_ & N & _); auto.
Qed.
Lemma digits_longer w c u : some_text Digit w -> ~ Alnum c -> c <> "."%char -> ~ class (w ++ String c u).
Proof.
  intros Hw Hc Hp. apply longer_alnum; auto.
  - apply digits_alnum; auto.
  - intros p e E He _ _. destruct Hw as [_ Hw]. exact (ee_digits _ _ _ E He Hw).
Qed.
Lemma bin_longer w c u : binary_text w -> ~ Alnum c -> ~ class (w ++ String c u).
Proof.
  intros Hw Hc. pose proof (bin_alnum _ Hw) as Ha. destruct Hw as (d & b & -> & Hb & Hd).
  apply longer_alnum; auto.
  - intros _ H. apply every_app in H as [_ H]. destruct Hb as [<-|[<-|[]]]; apply every_cons in H as [H _]; nope H.
  - intros p e E He _ _. assert (exists x, b = String x "") as (x & ->) by (destruct Hb as [<-|[<-|[]]]; eauto).
    destruct (ee_alnum _ He) as (_ & _ & _ & y & ->). apply last_app in E as [_ ->].
    destruct Hb as [Hb|[Hb|[]]]; injection Hb as <-; destruct He as [He|[He|[]]]; discriminate He.
Qed.
Lemma x_not_DE x : In x ["x"; "X"] -> exists c, x = String c "" /\ ~ DE c /\ ~ Digit c.
Proof. intros [<-|[<-|[]]]; (eexists; split; [reflexivity|split; intros H; nope H]). Qed.
Lemma hex_longer w c u : hex_text w -> ~ Alnum c -> ~ class (w ++ String c u).
Proof.
  intros Hw Hc. pose proof (hexlit_alnum _ Hw) as Ha. destruct Hw as (x & d & -> & Hx & Hd).
  destruct (x_not_DE _ Hx) as (z & -> & N1 & N2).
  apply longer_alnum; auto.
  - intros _ H. cbn [append] in H. apply every_cons in H as [_ H]. apply every_cons in H as [H _]; auto.
  - intros p e E He Hp D. destruct p as [|a p]; [congruence|]. injection E as <- E.
    destruct p as [|b p].
    + cbn in E. destruct He as [<-|[<-|[]]]; injection E as -> _; destruct Hx as [Hx|[Hx|[]]]; discriminate Hx.
    + injection E as -> _. apply every_cons in D as [_ D]. apply every_cons in D as [[D|D] _]; [auto|].
      subst. destruct Hx as [Hx|[Hx|[]]]; discriminate Hx.
Qed.
(** Numbers with a point or an exponent. *)
Lemma DP_not h : DP h -> h <> "/"%char /\ h <> "@"%char /\ ~ Letter h /\ ~ space h /\ String h "" <> quot.
Proof.
  intros H. assert (~ Letter h) by (intros L; exact (letter_DP h L H)).
  assert (W : within "0123456789." h = true).
  { apply within_iff. destruct H as [H| ->]; [revert H; apply one_sub; reflexivity|apply within_iff; reflexivity]. }
  split; [intros ->; discriminate|split; [intros ->; discriminate|split; [auto|split]]].
  - intros [->|[->|S]]; [discriminate..|]. cbn in S. destruct S as [<-|[<-|[<-|[]]]]; discriminate.
  - intros E. injection E as ->. discriminate.
Qed.
Lemma word_point x : In (String "." x) words -> x = "".
Proof.
  intros H. assert (Q : forallb (fun y => match y with String "." (String _ _) => false | _ => true end) words = true) by (vm_compute; reflexivity).
  rewrite forallb_forall in Q. specialize (Q _ H). cbn in Q. destruct x; [auto|discriminate].
Qed.
Lemma number_longer w c u : double_text w \/ float_text w -> ~ Alnum c -> ~ class (w ++ String c u).
Proof.
  intros Hw Hc H.
  assert (exists h tl, w = String h tl /\ DP h) as (h & tl & E & Hh).
  { destruct Hw; [apply double_head|apply float_head]; auto. }
  assert (Hd : ~ every Digit w).
  { destruct Hw as [Hw|Hw]; [apply double_not_digits; auto|].
    destruct Hw as (d & f & -> & Hd & _). intros Q. apply every_app in Q as [Q _]. exact (double_not_digits _ Hd Q). }
  assert (He : forall p e, w = p ++ e -> In e ee -> False).
  { intros p e Ew He. destruct (ee_alnum _ He) as (_ & _ & N & z & ->).
    destruct Hw as [Hw|Hw].
    - apply double_last in Hw as (a & y & -> & Hy). apply last_app in Ew as [_ ->]. apply N. constructor; [auto|constructor].
    - destruct Hw as (d & f & -> & _ & Hf). assert (exists y, f = String y "") as (y & ->) by (destruct Hf as [<-|[<-|[]]]; eauto).
      apply last_app in Ew as [_ ->]. destruct Hf as [Hf|[Hf|[]]]; injection Hf as <-; destruct He as [He|[He|[]]]; discriminate. }
  destruct (DP_not _ Hh) as (N1 & N2 & N3 & N4 & N5).
  inversion H as [W|d E' D|x E'|x E' _|W|x q E' _ _|W|W|W]; subst w.
  - pose proof W as W'. apply word_cases in W as [(? & ? & E' & W & _)|[(? & E' & _)|(? & ? & E' & W & W2)]].
    + injection E' as -> _; auto.
    + injection E' as -> _; auto.
    + injection E' as -> _. apply every_cons in W2 as [W2 _]. destruct Hh as [Hh| ->]; [apply W2, digit_alnum; auto|].
      cbn in W'. apply word_point in W'. destruct tl; discriminate.
  - destruct tl; discriminate E'.
  - injection E'; congruence.
  - injection E'; congruence.
  - destruct W as (l & E' & _). apply N5. cbn in E'. injection E' as -> _; reflexivity.
  - apply N5. cbn in E'. injection E' as -> _; reflexivity.
  - apply Hc. destruct W as [_ W]. exact (every_mid _ _ _ _ W).
  - destruct (double_inside _ _ _ _ W eq_refl Hc) as [[_ Q]|(_ & p & e & E & Q1 & Q2 & Q3)]; [auto|eauto].
  - destruct (float_inside _ _ _ _ W eq_refl Hc) as [[_ Q]|(_ & p & e & E & Q1 & Q2 & Q3)]; [auto|eauto].
Qed.
