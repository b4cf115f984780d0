(** Proofs for C73: the rules describe the texts of the specification. *)
From Coq Require Import List Bool String Ascii Arith Lia.
From Verif Require Import M_Lit M_Visit M_Parse M_Lex S_Lex P_Lex.
Import ListNotations.
Local Open Scope string_scope.

Notation la := list_ascii_of_string.

(** ** Strings *)

Lemma la_app a b : la (a ++ b) = (la a ++ la b)%list.
Proof. induction a; cbn; congruence. Qed.
Lemma la_inj a b : la a = la b -> a = b.
Proof. intros H. rewrite <- (string_of_list_ascii_of_string a), H. apply string_of_list_ascii_of_string. Qed.
Lemma la_len s : List.length (la s) = String.length s.
Proof. induction s; cbn; auto. Qed.
Lemma app_ass (a b c : string) : (a ++ b) ++ c = a ++ b ++ c.
Proof. apply la_inj; rewrite !la_app, app_assoc; auto. Qed.
Lemma app_nil (a : string) : a ++ "" = a.
Proof. apply la_inj; rewrite la_app; apply app_nil_r. Qed.
Lemma sapp_len (a b : string) : String.length (a ++ b) = String.length a + String.length b.
Proof. rewrite <- !la_len, la_app, app_length; auto. Qed.
Lemma concat_cons x l : String.concat "" (x :: l) = x ++ String.concat "" l.
Proof. destruct l; cbn; [rewrite app_nil; auto|auto]. Qed.
Lemma la_split s x y : la s = (x ++ y)%list -> exists a b, s = a ++ b /\ la a = x /\ la b = y.
Proof.
  intros H. exists (string_of_list_ascii x), (string_of_list_ascii y).
  rewrite !list_ascii_of_string_of_list_ascii. split; auto.
  apply la_inj. rewrite la_app, !list_ascii_of_string_of_list_ascii; auto.
Qed.

(** ** Character classes *)

Lemma within_iff s c : within s c = true <-> one_char s c.
Proof.
  unfold within, one_char. rewrite existsb_exists. split.
  - intros (d & H & E). apply Ascii.eqb_eq in E as ->; auto.
  - intros H; exists c; split; auto. apply Ascii.eqb_refl.
Qed.
Ltac chars := intros c; destruct c as [[] [] [] [] [] [] [] []]; vm_compute; reflexivity.
Lemma digit_w : forall c, digit c = within "0123456789" c. Proof. chars. Qed.
Lemma letter_w : forall c, letter c = within "abcdefghijklmnopqrstuvwxyzABCDEFGHIJKLMNOPQRSTUVWXYZ_" c. Proof. chars. Qed.
Lemma octal_w : forall c, range "0" "7" c = within "01234567" c. Proof. chars. Qed.
Lemma hex_w : forall c, digit c || range "a" "f" c || range "A" "F" c = within "0123456789abcdefABCDEF" c. Proof. chars. Qed.
Lemma oct3_w : forall c, range "0" "3" c = within "0123" c. Proof. chars. Qed.
Lemma digit_iff c : digit c = true <-> Digit c. Proof. rewrite digit_w; apply within_iff. Qed.
Lemma letter_iff c : letter c = true <-> Letter c. Proof. rewrite letter_w; apply within_iff. Qed.
Lemma octal_iff c : range "0" "7" c = true <-> Octal c. Proof. rewrite octal_w; apply within_iff. Qed.
Lemma oct3_iff c : range "0" "3" c = true <-> one_char "0123" c. Proof. rewrite oct3_w; apply within_iff. Qed.
Lemma hex_iff c : digit c || range "a" "f" c || range "A" "F" c = true <-> Hex c. Proof. rewrite hex_w; apply within_iff. Qed.
Lemma alnum_iff c : letter c || digit c = true <-> Alnum c.
Proof. rewrite orb_true_iff, letter_iff, digit_iff; reflexivity. Qed.
Lemma is_iff c d : is c d = true <-> c = d.
Proof. apply Ascii.eqb_eq. Qed.
Lemma newline_iff c : newline c = true <-> line_end c.
Proof.
  unfold newline, line_end, cr, nl, ff. rewrite !orb_true_iff, !is_iff. cbn [map In]. intuition auto.
Qed.
Lemma not_newline_iff c : negb (newline c) = true <-> ~ line_end c.
Proof. rewrite negb_true_iff, <- newline_iff. destruct (newline c); intuition congruence. Qed.
Lemma space_iff c : newline c || is c tab || is c " " = true <-> space c.
Proof. unfold space, tab. rewrite !orb_true_iff, newline_iff, !is_iff. tauto. Qed.

(** ** Matches of strings *)

Lemma sm_char p s : matches (RChar p) (la s) <-> exists c, s = String c "" /\ p c = true.
Proof.
  rewrite ma_char. split; intros (c & H & Hp); exists c; split; auto.
  - apply la_inj; auto.
  - subst; auto.
Qed.
Lemma sm_seq a b s : matches (RSeq a b) (la s) <-> exists x y, s = x ++ y /\ matches a (la x) /\ matches b (la y).
Proof.
  rewrite ma_seq. split.
  - intros (x & y & E & H1 & H2). apply la_split in E as (p & q & -> & <- & <-); eauto.
  - intros (x & y & -> & H1 & H2). exists (la x), (la y). rewrite la_app; auto.
Qed.
Lemma sm_nil s : matches RNil (la s) <-> s = "".
Proof. rewrite ma_nil. split; [intros H; apply la_inj; auto|intros ->; auto]. Qed.
Lemma sm_lits u : forall s, matches (rlits u) s <-> s = u.
Proof.
  induction u as [|c u IH]; intros s; cbn [rlits]; [apply ma_nil|].
  rewrite ma_seq. split.
  - intros (x & y & -> & H1 & H2). apply ma_char in H1 as (d & -> & H1). apply is_iff in H1 as ->.
    apply IH in H2 as ->; auto.
  - intros ->. exists [c], u. split; [auto|split; [constructor; apply is_iff; auto|apply IH; auto]].
Qed.
Lemma sm_lit x s : matches (rlit x) (la s) <-> s = x.
Proof. unfold rlit. rewrite sm_lits. split; [apply la_inj|intros ->; auto]. Qed.
Lemma star_list a s : matches (RStar a) s <-> exists l, s = List.concat l /\ Forall (matches a) l.
Proof.
  split.
  - intros H. remember (RStar a) as r eqn:Er. induction H; try discriminate; injection Er as ->.
    + exists []; auto.
    + destruct IHmatches2 as (l & -> & Hl); auto. exists (s :: l); auto.
  - intros (l & -> & Hl). induction Hl; cbn; constructor; auto.
Qed.
Lemma sm_star a s : matches (RStar a) (la s) <-> exists l, s = String.concat "" l /\ Forall (fun x => matches a (la x)) l.
Proof.
  rewrite star_list. split; intros (l & E & Hl).
  - exists (map string_of_list_ascii l). split.
    + apply la_inj. rewrite E. clear - l. induction l as [|x l IH]; [auto|].
      rewrite map_cons, concat_cons, la_app, list_ascii_of_string_of_list_ascii, <- IH; auto.
    + apply Forall_map. revert Hl. apply Forall_impl. intros x; rewrite list_ascii_of_string_of_list_ascii; auto.
  - exists (map la l). split.
    + rewrite E. clear - l. induction l as [|x l IH]; [auto|]. rewrite concat_cons, la_app, IH; auto.
    + apply Forall_map; auto.
Qed.
Lemma ma_star_char p s : matches (RStar (RChar p)) s <-> Forall (fun c => p c = true) s.
Proof.
  rewrite star_list. split.
  - intros (l & -> & Hl). induction Hl as [|x l H Hl IH]; cbn; [constructor|].
    apply ma_char in H as (c & -> & H). constructor; auto.
  - intros H. exists (map (fun c => [c]) s). split.
    + clear. induction s; cbn; congruence.
    + apply Forall_map. revert H. apply Forall_impl. intros; constructor; auto.
Qed.
Lemma sm_every p (P : ascii -> Prop) s : (forall c, p c = true <-> P c) -> matches (RStar (RChar p)) (la s) <-> every P s.
Proof.
  intros H. rewrite ma_star_char. unfold every. split; apply Forall_impl; intros c; apply H.
Qed.
Lemma sm_plus p (P : ascii -> Prop) s : (forall c, p c = true <-> P c) -> matches (rplus (RChar p)) (la s) <-> some_text P s.
Proof.
  intros H. unfold rplus, some_text. rewrite sm_seq. split.
  - intros (x & y & -> & H1 & H2). apply sm_char in H1 as (c & -> & Hc). apply (sm_every p P) in H2; auto.
    split; [discriminate|]. cbn. constructor; auto. apply H; auto.
  - intros [Hn He]. destruct s as [|c tl]; [congruence|]. inv He.
    exists (String c ""), tl. split; [auto|split]; [apply sm_char; exists c; split; auto; apply H; auto|].
    apply (sm_every p P); auto.
Qed.
Lemma sm_opt a s : matches (ropt a) (la s) <-> s = "" \/ matches a (la s).
Proof. unfold ropt. rewrite ma_or, sm_nil; tauto. Qed.
Lemma sm_any s : matches rany (la s).
Proof. unfold rany. apply ma_star_char. apply Forall_forall; auto. Qed.

(** ** The rules *)

Lemma rx_name s : matches id (la s) <-> exists c tl, s = String c tl /\ Letter c /\ every Alnum tl.
Proof.
  unfold id. rewrite sm_seq. split.
  - intros (x & y & -> & H1 & H2). apply sm_char in H1 as (c & -> & Hc).
    apply (sm_every _ _ _ alnum_iff) in H2. exists c, y. split; [auto|split; [apply letter_iff; auto|auto]].
  - intros (c & tl & -> & H1 & H2). exists (String c ""), tl. split; [auto|split].
    + apply sm_char; exists c; split; auto; apply letter_iff; auto.
    + apply (sm_every _ _ _ alnum_iff); auto.
Qed.
Lemma rx_invalid s : matches invalid_token (la s) <-> some_text Alnum s.
Proof. apply sm_plus, alnum_iff. Qed.
Lemma rx_ws s : matches ws (la s) <-> exists c, s = String c "" /\ space c.
Proof. unfold ws. rewrite sm_char. split; intros (c & -> & H); exists c; split; auto; apply space_iff; auto. Qed.
Lemma rx_line s : matches line_comment (la s) <-> exists x, s = "//" ++ x /\ every (fun c => ~ line_end c) x.
Proof.
  unfold line_comment. rewrite sm_seq. split.
  - intros (x & y & -> & H1 & H2). apply sm_lit in H1 as ->. exists y; split; auto.
    apply (sm_every _ _ _ not_newline_iff); auto.
  - intros (x & -> & H). exists "//", x. split; [auto|split]; [apply sm_lit; auto|].
    apply (sm_every _ _ _ not_newline_iff); auto.
Qed.
Lemma rx_block p s : matches (RSeq (rlit p) (RSeq rany (rlit "*/"))) (la s) <-> exists x, s = p ++ x ++ "*/".
Proof.
  rewrite sm_seq. split.
  - intros (a & b & -> & H1 & H2). apply sm_lit in H1 as ->. apply sm_seq in H2 as (x & y & -> & _ & H2).
    apply sm_lit in H2 as ->; eauto.
  - intros (x & ->). exists p, (x ++ "*/"). split; [auto|split; [apply sm_lit; auto|]].
    apply sm_seq. exists x, "*/". split; [auto|split; [apply sm_any|apply sm_lit; auto]].
Qed.
Lemma rx_markdown s : matches markdown_comment (la s) <-> exists x, s = "/*!" ++ x ++ "*/".
Proof.
  unfold markdown_comment. rewrite sm_seq. split.
  - intros (a & b & -> & H1 & H2). apply sm_lit in H1 as ->. apply sm_seq in H2 as (x & y & -> & _ & H2).
    apply sm_seq in H2 as (o & z & -> & H2 & H3). apply sm_lit in H3 as ->.
    exists (x ++ o). rewrite app_ass; auto.
  - intros (x & ->). exists "/*!", (x ++ "*/"). split; [auto|split; [apply sm_lit; auto|]].
    apply sm_seq. exists x, "*/". split; [auto|split; [apply sm_any|]].
    apply sm_seq. exists "", "*/". split; [auto|split; [apply sm_opt; auto|apply sm_lit; auto]].
Qed.
Lemma rx_bool s : matches bool_literal (la s) <-> literal_text TkBool s.
Proof. unfold bool_literal. rewrite ma_or, !sm_lit; reflexivity. Qed.
Lemma one_of_two a b (c : ascii) : within (String a (String b "")) c = true <-> In (String c "") [String a ""; String b ""].
Proof.
  rewrite within_iff. cbn. split; intros [H|[H|[]]]; [left|right; left|left|right; left]; congruence.
Qed.
Lemma rx_binary s : matches binary_literal (la s) <-> literal_text TkBin s.
Proof.
  unfold binary_literal. rewrite sm_seq. cbn [literal_text]. split.
  - intros (x & y & -> & H1 & H2). apply (sm_plus _ _ _ (within_iff "01")) in H1.
    apply sm_char in H2 as (c & -> & H2). exists x, (String c ""). split; [auto|split; [|auto]].
    apply one_of_two; auto.
  - intros (d & b & -> & Hb & Hd). exists d, b. split; [auto|split; [apply (sm_plus _ _ _ (within_iff "01")); auto|]].
    apply sm_char. destruct Hb as [<-|[<-|[]]]; eexists; split; reflexivity.
Qed.
Lemma rx_octal s : matches octal_literal (la s) <-> literal_text TkOct s.
Proof.
  unfold octal_literal, octal_digit. rewrite sm_seq. cbn [literal_text]. split.
  - intros (x & y & -> & H1 & H2). apply (sm_plus _ _ _ octal_iff) in H2.
    apply sm_char in H1 as (c & -> & H1). apply is_iff in H1 as <-. exists y; auto.
  - intros (d & -> & Hd). exists "0", d. split; [auto|split; [|apply (sm_plus _ _ _ octal_iff); auto]].
    apply sm_char. eexists; split; reflexivity.
Qed.
Lemma rx_hex s : matches hexadecimal_literal (la s) <-> literal_text TkHex s.
Proof.
  unfold hexadecimal_literal, hex_digit. rewrite sm_seq. cbn [literal_text]. split.
  - intros (x & y & -> & H1 & H2). apply sm_char in H1 as (c & -> & H1). apply is_iff in H1 as <-.
    apply sm_seq in H2 as (a & b & -> & H2 & H3). apply (sm_plus _ _ _ hex_iff) in H3.
    apply sm_char in H2 as (c & -> & H2). exists (String c ""), b. split; [auto|split; [|auto]].
    apply one_of_two; auto.
  - intros (x & d & -> & Hx & Hd). exists "0", (x ++ d). split; [auto|split].
    + apply sm_char. eexists; split; reflexivity.
    + apply sm_seq. exists x, d. split; [auto|split; [|apply (sm_plus _ _ _ hex_iff); auto]].
      apply sm_char. destruct Hx as [<-|[<-|[]]]; eexists; split; reflexivity.
Qed.
Lemma rx_decimal s : matches decimal_literal (la s) <-> literal_text TkDec s.
Proof.
  assert (D : forall c, range "1" "9" c = digit c && negb (is c "0")) by chars.
  unfold decimal_literal. rewrite ma_or, sm_seq, sm_char. cbn [literal_text]. split.
  - intros [(x & y & -> & H1 & H2)|(c & -> & H)].
    + right. apply sm_char in H1 as (c & -> & H1). rewrite D in H1. apply andb_true_iff in H1 as [H0 H1].
      apply (sm_every _ _ _ digit_iff) in H2. exists c, y. split; [auto|split; [apply digit_iff; auto|split; [|auto]]].
      intros ->. discriminate H1.
    + left. apply is_iff in H as <-; auto.
  - intros [->|(c & tl & -> & H1 & H2 & H3)]; [right; eexists; split; reflexivity|left].
    exists (String c ""), tl. split; [auto|split; [|apply (sm_every _ _ _ digit_iff); auto]].
    apply sm_char; exists c; split; auto. rewrite D, andb_true_iff. split; [apply digit_iff; auto|].
    destruct (is c "0") eqn:E; auto. apply is_iff in E; congruence.
Qed.
Lemma rx_digits s : matches digits1 (la s) <-> some_text Digit s.
Proof. apply sm_plus, digit_iff. Qed.
Lemma rx_exponent s : matches float_exponent (la s) <-> exponent_text s.
Proof.
  unfold float_exponent. rewrite sm_seq. split.
  - intros (x & y & -> & H1 & H2). apply sm_char in H1 as (c & -> & H1).
    apply sm_seq in H2 as (o & d & -> & H2 & H3). apply rx_digits in H3.
    exists (String c ""), o, d. split; [auto|split; [apply one_of_two; auto|split; [|auto]]].
    apply sm_opt in H2 as [->|H2]; [left; auto|right]. apply sm_char in H2 as (b & -> & H2). apply one_of_two; auto.
  - intros (e & sg & d & -> & He & Hs & Hd). exists e, (sg ++ d). split; [auto|split].
    + apply sm_char. destruct He as [<-|[<-|[]]]; eexists; split; reflexivity.
    + apply sm_seq. exists sg, d. split; [auto|split; [|apply rx_digits; auto]].
      apply sm_opt. destruct Hs as [<-|Hs]; [left; auto|right]. apply sm_char.
      destruct Hs as [<-|[<-|[]]]; eexists; split; reflexivity.
Qed.
Lemma rx_opt_exponent s : matches (ropt float_exponent) (la s) <-> s = "" \/ exponent_text s.
Proof. rewrite sm_opt, rx_exponent; reflexivity. Qed.
Lemma rx_point s : matches (RChar (is ".")) (la s) <-> s = ".".
Proof.
  rewrite sm_char. split; [intros (c & -> & H); apply is_iff in H as <-; auto|intros ->; eexists; split; reflexivity].
Qed.
Lemma rx_double s : matches double_literal (la s) <-> literal_text TkDouble s.
Proof.
  unfold double_literal. rewrite !ma_or, !sm_seq. cbn [literal_text]. unfold double_text.
  split; (intros [H|[H|H]]; [left|right; left|right; right]).
  - destruct H as (x & y & -> & H1 & H2). apply rx_digits in H1. apply rx_exponent in H2. eauto.
  - destruct H as (x & y & -> & H1 & H2). apply rx_digits in H1. apply sm_seq in H2 as (p & z & -> & H2 & H3).
    apply rx_point in H2 as ->. apply sm_seq in H3 as (f & e & -> & H3 & H4).
    apply (sm_every _ _ _ digit_iff) in H3. apply rx_opt_exponent in H4. exists x, f, e. auto.
  - destruct H as (x & y & -> & H1 & H2). apply rx_point in H1 as ->.
    apply sm_seq in H2 as (f & e & -> & H3 & H4).
    apply rx_digits in H3. apply rx_opt_exponent in H4. exists f, e. auto.
  - destruct H as (x & y & -> & H1 & H2). exists x, y. split; [auto|split; [apply rx_digits|apply rx_exponent]; auto].
  - destruct H as (d & f & e & -> & H1 & H2 & H3). exists d, ("." ++ f ++ e).
    split; [auto|split; [apply rx_digits; auto|]]. apply sm_seq. exists ".", (f ++ e).
    split; [auto|split; [apply rx_point; auto|]]. apply sm_seq. exists f, e.
    split; [auto|split; [apply (sm_every _ _ _ digit_iff); auto|apply rx_opt_exponent; auto]].
  - destruct H as (f & e & -> & H2 & H3). exists ".", (f ++ e).
    split; [auto|split; [apply rx_point; auto|]]. apply sm_seq. exists f, e.
    split; [auto|split; [apply rx_digits; auto|apply rx_opt_exponent; auto]].
Qed.
Lemma rx_float s : matches float_literal (la s) <-> literal_text TkFloat s.
Proof.
  unfold float_literal. rewrite sm_seq. cbn [literal_text]. split.
  - intros (x & y & -> & H1 & H2). apply sm_char in H2 as (c & -> & H2). apply rx_double in H1.
    exists x, (String c ""). split; [auto|split; [auto|apply one_of_two; auto]].
  - intros (d & f & -> & H1 & H2). exists d, f. split; [auto|split; [apply rx_double; auto|]].
    apply sm_char. destruct H2 as [<-|[<-|[]]]; eexists; split; reflexivity.
Qed.

(** Strings. *)
Lemma some_len n s : matches (Nat.iter n (RSeq hex_digit) hex_digit) (la s) <-> String.length s = S n /\ every Hex s.
Proof.
  revert s. induction n as [|n IH]; intros s; cbn [Nat.iter nat_rect].
  - unfold hex_digit at 1. rewrite sm_char. split.
    + intros (c & -> & H). split; [auto|]. constructor; [apply hex_iff; auto|constructor].
    + intros [H1 H2]. destruct s as [|c [|d s]]; try discriminate H1. exists c; split; auto. inv H2. apply hex_iff; auto.
  - unfold Nat.iter in IH. cbn in IH. rewrite sm_seq. split.
    + intros (x & y & -> & H1 & H2). apply IH in H2 as [H2 H3]. unfold hex_digit in H1.
      apply sm_char in H1 as (c & -> & H1). cbn. split; [lia|]. constructor; auto. apply hex_iff; auto.
    + intros [H1 H2]. destruct s as [|c s]; [discriminate|]. inv H2. exists (String c ""), s.
      split; [auto|split; [|apply IH; split; [cbn in H1; lia|auto]]].
      apply sm_char. exists c; split; auto. apply hex_iff; auto.
Qed.
Lemma rx_back s : matches (RChar (is backslash)) (la s) <-> s = bslash.
Proof.
  rewrite sm_char. split; [intros (c & -> & H); apply is_iff in H as <-; auto|intros ->; eexists; split; reflexivity].
Qed.
Lemma rx_oct s : matches octal_digit (la s) <-> exists c, s = String c "" /\ Octal c.
Proof. unfold octal_digit. rewrite sm_char. split; intros (c & -> & H); exists c; split; auto; apply octal_iff; auto. Qed.
Lemma one_lit c s : matches (RChar (is c)) (la s) <-> s = String c "".
Proof.
  rewrite sm_char. split; [intros (d & -> & H); apply is_iff in H as <-; auto|].
  intros ->; exists c; split; auto. apply is_iff; auto.
Qed.
Lemma rx_piece s : matches string_character (la s) <-> string_piece s.
Proof.
  unfold string_character. rewrite !ma_or, !sm_seq, sm_char. split.
  - intros [H|[H|[H|[H|H]]]].
    + destruct H as (c & -> & H). rewrite negb_true_iff, !orb_false_iff in H. destruct H as [[H1 H2] H3].
      constructor.
      * intros E. injection E as ->. discriminate H1.
      * intros E. injection E as ->. discriminate H2.
      * intros E. apply newline_iff in E; congruence.
    + destruct H as (x & y & -> & H1 & H2). apply rx_back in H1 as ->. constructor.
      apply sm_char in H2 as (c & -> & H2). rewrite !orb_true_iff, !is_iff, within_iff in H2.
      destruct H2 as [[->| ->]|H2]; [left; auto|right; left; auto|].
      cbn in H2. destruct H2 as [<-|[<-|[<-|[<-|[]]]]]; cbn; tauto.
    + destruct H as (x & y & -> & H1 & H2). apply rx_back in H1 as ->.
      apply sm_seq in H2 as (x & z & -> & H1 & H2). apply one_lit in H1 as ->.
      apply (some_len 3) in H2 as [H2 H3]. apply PcUnicode; auto.
    + destruct H as (x & y & -> & H1 & H2). apply rx_back in H1 as ->.
      apply sm_seq in H2 as (x & z & -> & H1 & H2). apply one_lit in H1 as ->.
      apply (some_len 1) in H2 as [H2 H3]. apply PcHex; auto.
    + destruct H as (x & y & -> & H1 & H2). apply rx_back in H1 as ->.
      apply sm_seq in H2 as (x & z & -> & H1 & H2). apply one_lit in H1 as ->.
      apply sm_seq in H2 as (o & d & -> & H1 & H2). apply sm_seq in H2 as (d1 & d2 & -> & H2 & H3).
      apply rx_oct in H2 as (c1 & -> & H2).
      apply sm_opt in H1 as [->|H1]; apply sm_opt in H3 as [->|H3].
      * apply PcOctal; [cbn; lia|]. constructor; [auto|constructor].
      * apply rx_oct in H3 as (c2 & -> & H3). apply PcOctal; [cbn; lia|]. constructor; [auto|constructor; [auto|constructor]].
      * apply sm_char in H1 as (c0 & -> & H1). apply oct3_iff in H1.
        apply PcOctal; [cbn; lia|]. constructor; [|constructor; [auto|constructor]].
        destruct H1 as [<-|[<-|[<-|[<-|[]]]]]; cbn; tauto.
      * apply rx_oct in H3 as (c2 & -> & H3). apply sm_char in H1 as (c0 & -> & H1). apply oct3_iff in H1.
        apply (PcOctal3 c0 (String c1 (String c2 ""))); auto. constructor; [auto|constructor; [auto|constructor]].
  - intros H. destruct H as [c H1 H2 H3|s H|s H1 H2|s H1 H2|s H1 H2|c s H1 H2 H3].
    + left. exists c; split; auto. rewrite negb_true_iff, !orb_false_iff.
      split; [split|].
      * destruct (is c quotation) eqn:E; auto. apply is_iff in E as ->. exfalso; apply H1; reflexivity.
      * destruct (is c backslash) eqn:E; auto. apply is_iff in E as ->. exfalso; apply H2; reflexivity.
      * destruct (newline c) eqn:E; auto. apply newline_iff in E; tauto.
    + right; left. exists bslash, s. split; [auto|split; [apply rx_back; auto|]]. apply sm_char.
      destruct H as [<-|[<-|[<-|[<-|[<-|[<-|[]]]]]]]; eexists; split; reflexivity.
    + right; right; left. exists bslash, ("u" ++ s). split; [auto|split; [apply rx_back; auto|]]. apply sm_seq.
      exists "u", s. split; [auto|split; [apply one_lit; auto|]]. apply (some_len 3); auto.
    + right; right; right; left. exists bslash, ("x" ++ s). split; [auto|split; [apply rx_back; auto|]]. apply sm_seq.
      exists "x", s. split; [auto|split; [apply one_lit; auto|]]. apply (some_len 1); auto.
    + right; right; right; right. exists bslash, ("0" ++ s). split; [auto|split; [apply rx_back; auto|]]. apply sm_seq.
      exists "0", s. split; [auto|split; [apply one_lit; auto|]]. apply sm_seq. exists "", s.
      split; [auto|split; [apply sm_opt; auto|]]. apply sm_seq.
      destruct s as [|a [|b [|z s]]]; cbn in H1; try lia.
      * inv H2. exists (String a ""), "". split; [auto|split; [apply rx_oct; eauto|apply sm_opt; auto]].
      * inv H2. inv H4. exists (String a ""), (String b ""). split; [auto|split; [apply rx_oct; eauto|]].
        apply sm_opt; right; apply rx_oct; eauto.
    + right; right; right; right. exists bslash, ("0" ++ String c s). split; [auto|split; [apply rx_back; auto|]]. apply sm_seq.
      exists "0", (String c s). split; [auto|split; [apply one_lit; auto|]]. apply sm_seq. exists (String c ""), s.
      split; [auto|split].
      { apply sm_opt; right. apply sm_char; exists c; split; auto; apply oct3_iff; auto. }
      apply sm_seq. destruct s as [|a [|b [|z s]]]; try discriminate H2.
      inv H3. inv H5. exists (String a ""), (String b ""). split; [auto|split; [apply rx_oct; eauto|]].
      apply sm_opt; right; apply rx_oct; eauto.
Qed.
Lemma rx_string s : matches string_literal (la s) <-> literal_text TkStr s.
Proof.
  unfold string_literal. rewrite sm_seq. cbn [literal_text]. split.
  - intros (x & y & -> & H1 & H2). apply one_lit in H1 as ->. apply sm_seq in H2 as (b & q & -> & H2 & H3).
    apply one_lit in H3 as ->. apply sm_star in H2 as (l & -> & Hl). exists l. split; [reflexivity|].
    revert Hl; apply Forall_impl; intros a; apply rx_piece.
  - intros (l & -> & Hl). exists quot, (String.concat "" l ++ quot).
    split; [auto|split; [apply one_lit; auto|]]. apply sm_seq. exists (String.concat "" l), quot.
    split; [auto|split; [|apply one_lit; auto]]. apply sm_star. exists l; split; auto.
    revert Hl; apply Forall_impl; intros a; apply rx_piece.
Qed.
Lemma rx_invalid_string s : matches invalid_string_literal (la s)
  <-> exists x q, s = quot ++ x ++ q /\ every (fun c => String c "" <> quot) x /\ (q = "" \/ q = quot).
Proof.
  assert (Q : forall c, negb (is c quotation) = true <-> String c "" <> quot).
  { intros c. rewrite negb_true_iff. split.
    - intros H E. injection E as ->. discriminate H.
    - intros H. destruct (is c quotation) eqn:E; auto. apply is_iff in E as ->. exfalso; apply H; reflexivity. }
  unfold invalid_string_literal. rewrite sm_seq. split.
  - intros (a & b & -> & H1 & H2). apply one_lit in H1 as ->. apply sm_seq in H2 as (x & q & -> & H2 & H3).
    apply (sm_every _ _ _ Q) in H2. apply sm_opt in H3. rewrite one_lit in H3. exists x, q; auto.
  - intros (x & q & -> & H1 & H2). exists quot, (x ++ q). split; [auto|split; [apply one_lit; auto|]].
    apply sm_seq. exists x, q. split; [auto|split; [apply (sm_every _ _ _ Q); auto|]].
    apply sm_opt. rewrite one_lit; auto.
Qed.
