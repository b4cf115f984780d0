(** Proofs for C73: every token and every gap is found. *)
From Coq Require Import List Bool String Ascii Arith Lia.
From Verif Require Import M_Lit M_Visit M_Parse M_Lex S_Lex P_Lex P_Lex2 P_Lex3 P_Lex4.
Import ListNotations.
Local Open Scope string_scope.

(** ** Literals and names *)

Lemma digit_head h : Digit h -> h <> "/"%char /\ ~ space h /\ ~ Letter h /\ String h "" <> quot /\ h <> "."%char.
Proof.
  intros H. assert (DP h) as Hd by (left; auto). destruct (DP_not _ Hd) as (N1 & N2 & N3 & N4 & N5).
  repeat split; auto. intros ->; nope H.
Qed.
Lemma word_text_not w : (exists h tl, w = String h tl /\ (Digit h \/ h = "."%char /\ tl <> "" \/ String h "" = quot \/ space h)) ->
  forall q, In q (map word_rule words) -> ~ matches (r_rx q) (la w).
Proof.
  intros (h & tl & -> & H). apply in_words_not. intros h' tl' E. injection E as <- <-; auto.
Qed.
Lemma before n (P : rule -> Prop) : (forall q, In q (map word_rule words) -> P q) -> (forall q, In q (firstn n others) -> P q) ->
  forall q, In q (map word_rule words ++ firstn n others)%list -> P q.
Proof. intros H1 H2 q Hq. apply in_app_or in Hq as []; auto. Qed.

Definition kind_of (t : token) : kind := match t with K _ => TWord | L k _ => TLit k | I _ => TName end.

(** Texts that start like a number. *)
Lemma not_bool h tl : DP h -> ~ matches (r_rx (Rule (TLit TkBool) false bool_literal)) (la (String h tl)).
Proof.
  intros H E. cbn [r_rx] in E. apply rx_bool in E. cbn in E.
  destruct E as [E|E]; injection E as -> _; destruct H as [H|H]; [nope H|discriminate|nope H|discriminate].
Qed.
Lemma not_string h tl : String h "" <> quot -> ~ matches (r_rx (Rule (TLit TkStr) false string_literal)) (la (String h tl)).
Proof. intros H E. cbn [r_rx] in E. apply rx_string in E as (l & E & _). cbn in E. injection E as -> _. apply H; reflexivity. Qed.
Lemma not_name_digit h tl : ~ Letter h -> ~ matches id (la (String h tl)).
Proof. intros H E. apply rx_name in E as (c & x & E & L & _). injection E as <- _; auto. Qed.

Lemma blanks_number w : (exists h tl, w = String h tl /\ DP h) -> forall q, In q blanks -> ~ matches (r_rx q) (la w).
Proof.
  intros (h & tl & -> & H). destruct (DP_not _ H) as (N1 & N2 & N3 & N4 & N5). apply blank_head. eauto.
Qed.
(** Up to the literals with a prefix or suffix. *)
Lemma number_before7 w : (exists h tl, w = String h tl /\ (Digit h \/ h = "."%char /\ tl <> "")) ->
  forall q, In q (map word_rule words ++ firstn 7 others)%list -> ~ matches (r_rx q) (la w).
Proof.
  intros (h & tl & -> & H). assert (DP h) as D by (destruct H as [H|[H _]]; [left|right]; auto).
  apply before.
  - apply word_text_not. exists h, tl. tauto.
  - intros q Hq. change (firstn 7 others) with (blanks ++ [Rule (TLit TkBool) false bool_literal; Rule (TLit TkStr) false string_literal])%list in Hq.
    apply in_app_or in Hq as [Hq|[<-|[<-|[]]]].
    + apply blanks_number; eauto.
    + apply not_bool; auto.
    + apply not_string. apply (DP_not _ D).
Qed.
Lemma bin_split w : binary_text w -> exists a c, w = a ++ String c "" /\ one_char "bB" c /\ every (one_char "01") a.
Proof.
  intros (d & b & -> & Hb & _ & Hd). exists d. destruct Hb as [<-|[<-|[]]]; eexists; (split; [reflexivity|]).
  all: split; [apply within_iff; reflexivity|auto].
Qed.
Lemma float_split w : float_text w -> exists a c, w = a ++ String c "" /\ one_char "fF" c /\ double_text a.
Proof.
  intros (d & f & -> & Hd & Hf). exists d. destruct Hf as [<-|[<-|[]]]; eexists; (split; [reflexivity|]).
  all: split; [apply within_iff; reflexivity|auto].
Qed.
Lemma disjoint a b : forallb (fun c => negb (within b c)) (la a) = true -> forall c, one_char a c -> one_char b c -> False.
Proof.
  rewrite forallb_forall. intros H c H1 H2. specialize (H c H1). apply within_iff in H2. rewrite H2 in H. discriminate.
Qed.
Lemma bin_not_digits w : binary_text w -> ~ every Digit w.
Proof.
  intros H D. apply bin_split in H as (a & c & -> & Hc & _). apply every_app in D as [_ D]. apply every_cons in D as [D _].
  revert Hc D. apply disjoint; reflexivity.
Qed.
Lemma hex_not_DE w : hex_text w -> ~ every DE w.
Proof.
  intros (x & d & -> & Hx & _) H. destruct (x_not_DE _ Hx) as (c & -> & N & _).
  cbn [append] in H. apply every_cons in H as [_ H]. apply every_cons in H as [H _]. auto.
Qed.
Lemma digits_DE w : every Digit w -> every DE w. Proof. apply every_impl, digit_DE. Qed.

Lemma bin_before w : binary_text w -> forall q, In q (map word_rule words ++ firstn 7 others)%list -> ~ matches (r_rx q) (la w).
Proof.
  intros (d & b & -> & _ & H). apply some_head in H as (h & tl & -> & Hh & _). apply number_before7.
  exists h, (tl ++ b). split; [auto|left]. revert Hh; apply one_sub; reflexivity.
Qed.
Lemma firstn_S_others n r : nth_error others n = Some r -> firstn (S n) others = (firstn n others ++ [r])%list.
Proof.
  generalize others. induction n as [|n IH]; intros [|x l] H; try discriminate H; cbn in *; [congruence|f_equal; auto].
Qed.
Lemma before_S n r w : nth_error others n = Some r -> ~ matches (r_rx r) (la w) ->
  (forall q, In q (map word_rule words ++ firstn n others)%list -> ~ matches (r_rx q) (la w)) ->
  forall q, In q (map word_rule words ++ firstn (S n) others)%list -> ~ matches (r_rx q) (la w).
Proof.
  intros Hr Hn H q Hq. rewrite (firstn_S_others _ _ Hr), app_assoc in Hq. apply in_app_or in Hq as [Hq|[<-|[]]]; auto.
Qed.
Lemma oct_before w : octal_text w -> forall q, In q (map word_rule words ++ firstn 8 others)%list -> ~ matches (r_rx q) (la w).
Proof.
  intros H. pose proof (oct_digits _ H) as Hd. eapply before_S; [reflexivity| |].
  - cbn [r_rx]. intros E. apply rx_binary in E. apply (bin_not_digits _ E), Hd.
  - apply some_head in Hd as (h & tl & -> & Hh & _). apply number_before7. eauto.
Qed.
Lemma hex_before w : hex_text w -> forall q, In q (map word_rule words ++ firstn 9 others)%list -> ~ matches (r_rx q) (la w).
Proof.
  intros H. pose proof (hex_not_DE _ H) as N. eapply before_S; [reflexivity| |eapply before_S; [reflexivity| |]].
  - cbn [r_rx]. intros E. apply rx_octal in E. apply N, digits_DE, (oct_digits _ E).
  - cbn [r_rx]. intros E. apply rx_binary in E. destruct H as (x & d & -> & Hx & _). destruct (x_not_DE _ Hx) as (c & -> & N1 & N2).
    apply bin_split in E as (a & y & E & Hy & Ha). destruct a as [|a0 a].
    + cbn in E. injection E as <- E. nope Hy.
    + injection E as <- E. destruct a as [|a1 a]; cbn in E.
      * injection E as -> _. destruct Hx as [Hx|[Hx|[]]]; injection Hx as <-; nope Hy.
      * injection E as -> _. apply every_cons in Ha as [_ Ha]. apply every_cons in Ha as [Ha _].
        apply N2. revert Ha; apply one_sub; reflexivity.
  - destruct H as (x & d & -> & _). apply number_before7. exists "0"%char, (x ++ d). split; [auto|left].
    apply within_iff; reflexivity.
Qed.
Lemma double_start w : double_text w -> exists h tl, w = String h tl /\ (Digit h \/ h = "."%char /\ tl <> "").
Proof.
  intros H. pose proof (double_head _ H) as (h & tl & -> & [D| ->]); exists h || exists "."%char; exists tl; (split; [auto|]).
  - left; auto.
  - right; split; auto. apply double_point in H as (c & y & -> & _). discriminate.
Qed.
Lemma double_before w : double_text w -> forall q, In q (map word_rule words ++ firstn 10 others)%list -> ~ matches (r_rx q) (la w).
Proof.
  intros H. pose proof (double_DE _ H) as Hd.
  eapply before_S; [reflexivity| |eapply before_S; [reflexivity| |eapply before_S; [reflexivity| |]]].
  - cbn [r_rx]. intros E. apply rx_hex in E. apply (hex_not_DE _ E); auto.
  - cbn [r_rx]. intros E. apply rx_octal in E. apply (double_not_digits _ H), (oct_digits _ E).
  - cbn [r_rx]. intros E. apply rx_binary in E. apply bin_split in E as (a & c & -> & Hc & _).
    apply double_last in H as (b & d & E & D). apply last_app in E as [_ ->].
    destruct D as [D| ->]; [revert Hc D; apply disjoint; reflexivity|nope Hc].
  - apply number_before7, double_start; auto.
Qed.
Lemma float_before w : float_text w -> forall q, In q (map word_rule words ++ firstn 11 others)%list -> ~ matches (r_rx q) (la w).
Proof.
  intros H. pose proof (float_split _ H) as (a & c & Ew & Hc & Ha).
  eapply before_S; [reflexivity| |eapply before_S; [reflexivity| |eapply before_S; [reflexivity| |eapply before_S; [reflexivity| |]]]].
  - cbn [r_rx]. intros E. apply rx_double in E. apply double_last in E as (b & d & E & D). subst w.
    apply last_app in E as [_ ->]. destruct D as [D| ->]; [revert Hc D; apply disjoint; reflexivity|nope Hc].
  - cbn [r_rx]. intros E. apply rx_hex in E. subst w. destruct E as (x & d & E & Hx & _).
    destruct (x_not_DE _ Hx) as (z & -> & N1 & N2). pose proof (double_DE _ Ha) as Hd.
    destruct a as [|a0 a]; cbn in E.
    + injection E as -> _. nope Hc.
    + injection E as -> E. apply every_cons in Hd as [_ Hd]. destruct a as [|a1 a]; cbn in E.
      * injection E as -> _. destruct Hx as [Hx|[Hx|[]]]; injection Hx as <-; nope Hc.
      * injection E as -> _. apply every_cons in Hd as [Hd _]. auto.
  - cbn [r_rx]. intros E. apply rx_octal in E. apply oct_digits in E as [_ E]. subst w.
    apply every_app in E as [E _]. exact (double_not_digits _ Ha E).
  - cbn [r_rx]. intros E. apply rx_binary in E. apply bin_split in E as (b & d & E & Hd & _). subst w.
    apply last_app in E as [_ ->]. revert Hc Hd. apply disjoint; reflexivity.
  - apply number_before7. destruct (double_start _ Ha) as (h & tl & -> & [D|[-> D]]).
    + exists h, (tl ++ String c ""). split; [auto|left; auto].
    + exists "."%char, (tl ++ String c ""). subst w. split; [auto|right; split; auto]. destruct tl; discriminate.
Qed.
Lemma dec_before w : decimal_text w -> forall q, In q (map word_rule words ++ firstn 12 others)%list -> ~ matches (r_rx q) (la w).
Proof.
  intros H. pose proof (dec_digits _ H) as [Hn Hd].
  eapply before_S; [reflexivity| |eapply before_S; [reflexivity| |eapply before_S; [reflexivity| |eapply before_S; [reflexivity| |eapply before_S; [reflexivity| |]]]]].
  - cbn [r_rx]. intros E. apply rx_float in E. destruct E as (d & f & -> & E & _).
    apply every_app in Hd as [Hd _]. exact (double_not_digits _ E Hd).
  - cbn [r_rx]. intros E. apply rx_double in E. exact (double_not_digits _ E Hd).
  - cbn [r_rx]. intros E. apply rx_hex in E. apply (hex_not_DE _ E), digits_DE; auto.
  - cbn [r_rx]. intros E. apply rx_octal in E. destruct E as (d & -> & Hd0 & _).
    destruct H as [E|(c & tl & E & _ & Hc & _)]; cbn in E; injection E as E; [congruence|]. apply Hc; auto.
  - cbn [r_rx]. intros E. apply rx_binary in E. exact (bin_not_digits _ E Hd).
  - destruct w as [|h tl]; [congruence|]. apply number_before7. apply every_cons in Hd as [Hd _]. eauto.
Qed.
Lemma string_before w : string_text w -> forall q, In q (map word_rule words ++ firstn 6 others)%list -> ~ matches (r_rx q) (la w).
Proof.
  intros (l & -> & _). cbn [append quot]. apply before.
  - apply word_text_not. eexists _, _. split; [reflexivity|]. right; right; left; reflexivity.
  - intros q Hq. change (firstn 6 others) with (blanks ++ [Rule (TLit TkBool) false bool_literal])%list in Hq.
    apply in_app_or in Hq as [Hq|[<-|[]]].
    + revert q Hq. apply blank_head. eexists _, _. split; [reflexivity|split; [discriminate|]].
      intros [D|[D|D]]; [discriminate..|]. cbn in D. destruct D as [D|[D|[D|[]]]]; discriminate.
    + intros E. cbn [r_rx] in E. apply rx_bool in E. destruct E as [E|E]; discriminate E.
Qed.
Lemma letter_blank h tl : Letter h -> forall q, In q blanks -> ~ matches (r_rx q) (la (String h tl)).
Proof.
  intros H. apply blank_head. exists h, tl. split; [auto|split].
  - intros ->. nope H.
  - intros S. destruct (space_not _ S) as [N _]. apply N; left; auto.
Qed.
Lemma bool_before w : w = "true" \/ w = "false" -> forall q, In q (map word_rule words ++ firstn 5 others)%list -> ~ matches (r_rx q) (la w).
Proof.
  intros H. apply before.
  - intros q Hq E. apply in_map_iff in Hq as (x & <- & Hx). apply word_rx in E. subst x.
    assert (Q : forallb (fun y => negb (String.eqb y "true") && negb (String.eqb y "false")) words = true) by (vm_compute; reflexivity).
    rewrite forallb_forall in Q. specialize (Q _ Hx). destruct H as [->| ->]; discriminate Q.
  - fold blanks. destruct H as [->| ->]; apply letter_blank, letter_iff; reflexivity.
Qed.
Lemma name_before w : name_text w -> forall q, In q (map word_rule words ++ firstn 13 others)%list -> ~ matches (r_rx q) (la w).
Proof.
  intros ((h & tl & -> & Hh & Ht) & Hk & Htr & Hfa).
  assert (ND : ~ DP h) by (apply letter_DP; auto).
  assert (NQ : String h "" <> quot) by (intros E; injection E as ->; nope Hh).
  apply before.
  - intros q Hq E. apply in_map_iff in Hq as (x & <- & Hx). apply word_rx in E. subst x.
    apply Hk. apply kw_of; auto.
  - change (firstn 13 others) with (blanks ++ firstn 8 (skipn 5 others))%list. intros q Hq.
    apply in_app_or in Hq as [Hq|Hq]; [apply letter_blank; auto|].
    unfold others, firstn, skipn in Hq. rule_cases Hq.
    + intros E. cbn [r_rx] in E. apply rx_bool in E. destruct E; auto.
    + apply not_string; auto.
    + intros E. cbn [r_rx] in E. apply rx_binary in E. destruct E as (d & b & E & _ & Hd).
      apply some_head in Hd as (c & x & -> & Hc & _). injection E as <- _. apply ND; left. revert Hc; apply one_sub; reflexivity.
    + intros E. cbn [r_rx] in E. apply rx_octal in E. apply oct_digits in E as [_ E]. apply every_cons in E as [E _].
      apply ND; left; auto.
    + intros E. cbn [r_rx] in E. apply rx_hex in E. destruct E as (x & d & E & _). injection E as -> _. nope Hh.
    + intros E. cbn [r_rx] in E. apply rx_double in E. apply double_head in E as (c & x & E & D). injection E as <- _; auto.
    + intros E. cbn [r_rx] in E. apply rx_float in E. apply float_head in E as (c & x & E & D). injection E as <- _; auto.
    + intros E. cbn [r_rx] in E. apply rx_decimal in E. apply dec_digits in E as [_ E]. apply every_cons in E as [E _].
      apply ND; left; auto.
Qed.

(** ** Tokens *)

Lemma words_nodup : NoDup words.
Proof.
  assert (Q : forall l : list string, (fix nd l := match l with [] => true | x :: tl => negb (existsb (String.eqb x) tl) && nd tl end) l = true -> NoDup l).
  { induction l as [|x l IH]; intros H; constructor; apply andb_true_iff in H as [H1 H2]; auto.
    intros Hin. apply negb_true_iff in H1. assert (existsb (String.eqb x) l = true); [|congruence].
    apply existsb_exists. exists x; split; auto. apply String.eqb_refl. }
  apply Q. vm_compute. reflexivity.
Qed.
Lemma token_next t rest : token_wf t -> (forall c tl, rest = String c tl -> may_follow t c) ->
  best rules (la (text_of t ++ rest)) = Some (kind_of t, String.length (text_of t)).
Proof.
  intros Hw Hf.
  assert (Hn : forall c tl, rest = String c tl -> forall u, ~ class (text_of t ++ String c u)).
  { intros c tl E u. apply longer; auto. eapply Hf; eauto. }
  destruct t as [s|k s|s]; cbn [text_of kind_of token_wf] in *.
  - assert (In s words) as Hs by (apply in_or_app; auto).
    apply in_split in Hs as (a & b & Hs). pose proof words_nodup as N. rewrite Hs in N.
    apply NoDup_remove_2 in N.
    apply (wins_text s rest (map word_rule a) (word_rule s) (map word_rule b ++ others)%list); auto.
    + rewrite rules_eq, Hs, map_app, <- app_assoc. reflexivity.
    + cbn. apply sm_lit; auto.
    + intros q Hq E. apply in_map_iff in Hq as (x & <- & Hx). apply word_rx in E as ->.
      apply N, in_or_app; auto.
  - destruct k; cbn [literal_text] in Hw; [
      apply (wins_text s rest _ _ _ (others_at 5 _ eq_refl)) | apply (wins_text s rest _ _ _ (others_at 12 _ eq_refl))
    | apply (wins_text s rest _ _ _ (others_at 9 _ eq_refl)) | apply (wins_text s rest _ _ _ (others_at 8 _ eq_refl))
    | apply (wins_text s rest _ _ _ (others_at 7 _ eq_refl)) | apply (wins_text s rest _ _ _ (others_at 6 _ eq_refl))
    | apply (wins_text s rest _ _ _ (others_at 11 _ eq_refl)) | apply (wins_text s rest _ _ _ (others_at 10 _ eq_refl))];
      try reflexivity; auto; cbn [r_rx].
    + apply rx_bool; auto.
    + apply bool_before; auto.
    + apply rx_decimal; auto.
    + apply dec_before; auto.
    + apply rx_hex; auto.
    + apply hex_before; auto.
    + apply rx_octal; auto.
    + apply oct_before; auto.
    + apply rx_binary; auto.
    + apply bin_before; auto.
    + apply rx_string; auto.
    + apply string_before; auto.
    + apply rx_float; auto.
    + apply float_before; auto.
    + apply rx_double; auto.
    + apply double_before; auto.
  - apply (wins_text s rest _ _ _ (others_at 13 _ eq_refl)); auto; cbn [r_rx].
    + apply rx_name. apply Hw.
    + apply name_before; auto.
Qed.
