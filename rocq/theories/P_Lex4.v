(** Proofs for C73: the next token. *)
From Coq Require Import List Bool String Ascii Arith Lia.
From Verif Require Import M_Lit M_Visit M_Parse M_Lex S_Lex P_Lex P_Lex2 P_Lex3.
Import ListNotations.
Local Open Scope string_scope.

(** ** Strings end at the first quotation mark that is not escaped *)

Fixpoint scan (esc : bool) (s : string) : option string :=
  match s with
  | "" => None
  | String c tl => if esc then scan false tl else if is c quotation then Some tl else scan (is c backslash) tl
  end.
Lemma scan_hex s x : every Hex s -> scan false (s ++ x) = scan false x.
Proof.
  induction s as [|c s IH]; intros H; [auto|]. apply every_cons in H as [H H2]. cbn [append scan].
  apply hex_iff in H.
  assert (Q : forall c, implb (digit c || range "a" "f" c || range "A" "F" c) (negb (is c quotation) && negb (is c backslash)) = true) by (clear; chars).
  specialize (Q c). rewrite H in Q. cbn [implb] in Q. apply andb_true_iff in Q as [Q1 Q2].
  apply negb_true_iff in Q1, Q2. rewrite Q1, Q2. auto.
Qed.
Lemma octal_hex s : every Octal s -> every Hex s.
Proof. apply every_impl, one_sub; reflexivity. Qed.
Lemma scan_piece p x : string_piece p -> scan false (p ++ x) = scan false x.
Proof.
  intros H. destruct H as [c H1 H2 H3|s H|s H1 H2|s H1 H2|s H1 H2|c s H1 H2 H3].
  - cbn [append scan]. destruct (is c quotation) eqn:E.
    { apply is_iff in E as ->. exfalso; apply H1; reflexivity. }
    destruct (is c backslash) eqn:E2; [|auto]. apply is_iff in E2 as ->. exfalso; apply H2; reflexivity.
  - destruct H as [<-|[<-|[<-|[<-|[<-|[<-|[]]]]]]]; reflexivity.
  - rewrite !app_ass. cbn. apply scan_hex; auto.
  - rewrite !app_ass. cbn. apply scan_hex; auto.
  - rewrite !app_ass. cbn. apply scan_hex, octal_hex; auto.
  - rewrite !app_ass. cbn [append scan bslash]. change (is (ascii_of_nat 92) quotation) with false.
    change (is (ascii_of_nat 92) backslash) with true. cbn iota. apply (scan_hex (String c s)).
    apply every_cons; split; [|apply octal_hex; auto]. revert H1; apply one_sub; reflexivity.
Qed.
Lemma scan_body l x : Forall string_piece l -> scan false (String.concat "" l ++ x) = scan false x.
Proof.
  induction 1; [auto|]. rewrite concat_cons, app_ass, scan_piece; auto.
Qed.
Lemma string_longer w c u : string_text w -> ~ class (w ++ String c u).
Proof.
  intros (l & -> & Hl) H.
  assert (Q : forall h, String h "" = quot -> ~ Alnum h /\ h <> "/"%char /\ h <> "@"%char /\ ~ DP h /\ ~ space h).
  { intros h E. injection E as ->. split; [rewrite <- alnum_iff; discriminate|split; [discriminate|split; [discriminate|split]]].
    - intros [D|D]; [nope D|discriminate].
    - intros [D|[D|D]]; [discriminate..|]. cbn in D. destruct D as [D|[D|[D|[]]]]; discriminate. }
  destruct (Q _ eq_refl) as (N1 & N2 & N3 & N4 & N5).
  inversion H as [W|d E D|x E|x E _|W|x q E E2 E3|W|W|W].
  - apply word_cases in W as [(? & ? & E & W & _)|[(? & E & _)|(? & ? & E & W & _)]].
    + injection E as <- _. apply N1; left; auto.
    + injection E; discriminate.
    + injection E as <- _. nope W.
  - apply (f_equal String.length) in E. rewrite !sapp_len in E. cbn in E. lia.
  - injection E; discriminate.
  - injection E; discriminate.
  - destruct W as (l' & E & Hl'). cbn [append quot] in E. injection E as E. rewrite app_ass in E.
    assert (S1 := scan_body l (quot ++ String c u) Hl). rewrite E in S1.
    rewrite (scan_body l' quot Hl') in S1. discriminate S1.
  - cbn [append quot] in E. injection E as E. rewrite app_ass in E.
    change (quot ++ String c u) with (String (ascii_of_nat 34) (String c u)) in E.
    apply mid_app in E as [(y & -> & _)|(y & E & Eq)].
    + apply every_mid in E2. apply E2; reflexivity.
    + destruct E3 as [->| ->]; [destruct y; discriminate Eq|]. destruct y as [|z y]; [discriminate Eq|].
      injection Eq as _ Eq. destruct y; discriminate Eq.
  - destruct W as [_ W]. rewrite !every_app in W. destruct W as [[W _] _]. apply every_cons in W as [W _]. auto.
  - apply double_head in W as (h & x & E & D). injection E as <- _; auto.
  - apply float_head in W as (h & x & E & D). injection E as <- _; auto.
Qed.

(** ** Operators and keywords *)

Definition kw_ok (s : string) : bool := match s with "" => false | String h _ => letter h || is h "@" end.
Lemma op_not_kw : forallb (fun s => negb (kw_ok s)) operators = true.
Proof. vm_compute; reflexivity. Qed.
Lemma kw_all : forallb kw_ok keywords = true.
Proof. vm_compute; reflexivity. Qed.
Lemma kw_of h tl : In (String h tl) words -> Letter h \/ h = "@"%char -> In (String h tl) keywords.
Proof.
  intros H Hh. apply in_app_or in H as [H|H]; auto. exfalso.
  pose proof op_not_kw as Q. rewrite forallb_forall in Q. specialize (Q _ H). apply negb_true_iff in Q. cbn in Q.
  apply orb_false_iff in Q as [Q1 Q2]. destruct Hh as [Hh| ->]; [apply letter_iff in Hh; congruence|discriminate].
Qed.
Lemma word_slash x : In (String "/" x) words -> x = "".
Proof.
  intros H. assert (Q : forallb (fun y => match y with String "/" (String _ _) => false | _ => true end) words = true) by (vm_compute; reflexivity).
  rewrite forallb_forall in Q. specialize (Q _ H). cbn in Q. destruct x; [auto|discriminate].
Qed.
Lemma word_follow w c u : In w words -> may_follow (K w) c -> ~ class (w ++ String c u).
Proof.
  intros Hw Hf. pose proof (follow_clash _ _ Hf) as Hcl.
  destruct (word_cases _ Hw) as [(h & tl & -> & Hh & Ha)|[(tl & -> & Ha)|(h & tl & -> & Hh & Ha)]].
  - apply letter_longer; eauto. destruct Hf as [Hf _]. apply Hf. apply (kw_of h tl); auto.
  - intros H. inversion H as [W|d E D|x E|x E _|W|x q E _ _|W|W|W].
    + apply word_longer in W; auto; congruence.
    + destruct tl; discriminate E.
    + discriminate E.
    + discriminate E.
    + destruct W as (l & E & _). discriminate E.
    + discriminate E.
    + destruct W as [_ W]. apply every_cons in W as [W _]. apply alnum_iff in W. discriminate W.
    + apply double_head in W as (h & x & E & D). injection E as <- _. destruct D as [D|D]; [nope D|discriminate].
    + apply float_head in W as (h & x & E & D). injection E as <- _. destruct D as [D|D]; [nope D|discriminate].
  - apply every_cons in Ha as [Ha _]. destruct Hf as (_ & Hp & _ & _ & _ & _ & Hs).
    intros H. inversion H as [W|d E D|x E|x E _|W|x q E _ _|W|W|W].
    + apply word_longer in W; auto; congruence.
    + destruct tl; discriminate E.
    + cbn in E. injection E as -> E. apply word_slash in Hw as ->. injection E as -> _. destruct (Hs eq_refl); auto.
    + cbn in E. injection E as -> E. apply word_slash in Hw as ->. injection E as -> _. destruct (Hs eq_refl); auto.
    + destruct W as (l & E & _). cbn in E. injection E as -> _. nope Hh.
    + cbn in E. injection E as -> _. nope Hh.
    + destruct W as [_ W]. apply every_cons in W as [W _]. auto.
    + pose proof (double_head _ W) as (d & x & E & D). injection E as <- _. destruct D as [D|D]; [apply Ha, digit_alnum; auto|].
      subst h. apply word_point in Hw as ->. cbn in W. apply double_point in W as (d & y & E & D).
      injection E as <- _. apply Hp; auto.
    + pose proof (float_head _ W) as (d & x & E & D). injection E as <- _. destruct D as [D|D]; [apply Ha, digit_alnum; auto|].
      subst h. apply word_point in Hw as ->. cbn in W. apply float_point in W as (d & y & E & D).
      injection E as <- _. apply Hp; auto.
Qed.

(** Nothing longer than a token. *)
Lemma longer t c u : token_wf t -> may_follow t c -> ~ class (text_of t ++ String c u).
Proof.
  destruct t as [s|k s|s]; cbn [token_wf text_of]; intros Hw Hf.
  - apply word_follow; auto. apply in_or_app; auto.
  - destruct k; cbn [literal_text may_follow] in *.
    + apply letter_longer; auto; [|apply bool_alnum; auto].
      destruct Hw as [->| ->]; (eexists _, _; split; [reflexivity|apply letter_iff; reflexivity]).
    + apply digits_longer; [apply dec_digits; auto|tauto..].
    + apply hex_longer; auto.
    + apply digits_longer; [apply oct_digits; auto|tauto..].
    + apply bin_longer; auto.
    + apply string_longer; auto.
    + apply number_longer; auto.
    + apply number_longer; auto.
  - destruct Hw as [Hw _]. apply letter_longer; auto; [|apply name_alnum; auto].
    destruct Hw as (h & tl & -> & Hh & _). eauto.
Qed.

(** ** The winning rule *)

Lemma firstn_more m (w : string) c tl : String.length w < m ->
  firstn m (la (w ++ String c tl)) = la (w ++ String c (string_of_list_ascii (firstn (m - S (String.length w)) (la tl)))).
Proof.
  intros H. rewrite !la_app, firstn_app, la_len. rewrite firstn_all2 by (rewrite la_len; lia). f_equal.
  replace (m - String.length w) with (S (m - S (String.length w))) by lia. cbn.
  rewrite list_ascii_of_string_of_list_ascii. auto.
Qed.
Lemma firstn_exact (w rest : string) : firstn (String.length w) (la (w ++ rest)) = la w.
Proof. rewrite la_app, <- la_len, firstn_app, Nat.sub_diag, firstn_all, app_nil_r; auto. Qed.
Lemma no_longer w rest m q : (forall c tl, rest = String c tl -> forall u, ~ class (w ++ String c u)) ->
  In q rules -> m <= String.length (w ++ rest) -> matches (r_rx q) (firstn m (la (w ++ rest))) -> m <= String.length w.
Proof.
  intros Hn Hq Hm H. destruct (Nat.le_gt_cases m (String.length w)); auto. exfalso.
  destruct rest as [|c tl]; [rewrite app_nil in Hm; lia|].
  rewrite firstn_more in H by auto. apply classify in H; auto. eapply Hn; eauto.
Qed.
Lemma wins_text w rest l1 r l2 : rules = (l1 ++ r :: l2)%list -> r_lazy r = false -> matches (r_rx r) (la w) ->
  (forall q, In q l1 -> ~ matches (r_rx q) (la w)) ->
  (forall c tl, rest = String c tl -> forall u, ~ class (w ++ String c u)) ->
  best rules (la (w ++ rest)) = Some (r_kind r, String.length w).
Proof.
  intros Er Hl Hr Hb Hn. apply best_iff. exists l1, r, l2.
  assert (B : forall q m, In q rules -> ends q (la (w ++ rest)) m -> m <= String.length w).
  { intros q m Hq (H1 & H2 & _). rewrite la_len in H1. eapply no_longer; eauto. }
  split; [auto|split; [auto|split; [|split]]].
  - split; [rewrite la_len, sapp_len; lia|split; [rewrite firstn_exact; auto|]].
    rewrite Hl. intros m Hm Hlt Hx. rewrite la_len in Hm.
    assert (m <= String.length w); [|lia]. eapply no_longer; eauto. rewrite Er. apply in_or_app; right; left; auto.
  - intros q m Hq Hm. assert (m <= String.length w) by (apply (B q); auto; rewrite Er; apply in_or_app; auto).
    destruct (Nat.eq_dec m (String.length w)) as [->|]; [exfalso|lia].
    destruct Hm as (_ & Hm & _). rewrite firstn_exact in Hm. eapply Hb; eauto.
  - intros q m Hq Hm. apply (B q); auto. rewrite Er. apply in_or_app; right; right; auto.
Qed.

(** ** No earlier rule *)

Lemma in_words_not w : (forall h tl, w = String h tl -> Digit h \/ h = "."%char /\ tl <> "" \/ String h "" = quot \/ space h) ->
  forall q, In q (map word_rule words) -> ~ matches (r_rx q) (la w).
Proof.
  intros Hw q Hq H. apply in_map_iff in Hq as (x & <- & Hx). apply word_rx in H as ->.
  destruct (word_cases _ Hx) as [(h & tl & -> & Hh & Ha)|[(tl & -> & Ha)|(h & tl & -> & Hh & Ha)]];
    destruct (Hw _ _ eq_refl) as [D|[[D D2]|[D|D]]].
  - apply (letter_DP h); [|left]; auto.
  - subst; nope Hh.
  - injection D as ->; nope Hh.
  - destruct (space_not _ D) as [N _]. apply N; left; auto.
  - nope D.
  - discriminate.
  - discriminate.
  - destruct D as [D|[D|D]]; [discriminate..|]. cbn in D. destruct D as [D|[D|[D|[]]]]; discriminate.
  - apply every_cons in Ha as [Ha _]. apply Ha, digit_alnum; auto.
  - subst. apply word_point in Hx; auto.
  - injection D as ->; nope Hh.
  - destruct D as [->|[->|D]]; [nope Hh..|]. cbn in D. destruct D as [<-|[<-|[<-|[]]]]; nope Hh.
Qed.

Ltac rule_cases Hq :=
  cbn [In app] in Hq;
  repeat (destruct Hq as [<-|Hq]); [..|destruct Hq].
(** The rules for blanks and comments. *)
Definition blanks : list rule := firstn 5 others.
Lemma blank_head w : (exists h tl, w = String h tl /\ h <> "/"%char /\ ~ space h) ->
  forall q, In q blanks -> ~ matches (r_rx q) (la w).
Proof.
  intros (h & tl & -> & H1 & H2) q Hq H. unfold blanks, others, firstn in Hq. rule_cases Hq; cbn [r_rx] in H.
  - apply rx_ws in H as (c & E & Hc). injection E as -> _; auto.
  - apply rx_block in H as (x & E). injection E; auto.
  - apply rx_markdown in H as (x & E). injection E; auto.
  - apply rx_block in H as (x & E). injection E; auto.
  - apply rx_line in H as (x & E & _). injection E; auto.
Qed.

(** A rule and what is before it among the others. *)
Lemma others_at n r : nth_error others n = Some r ->
  rules = ((map word_rule words ++ firstn n others) ++ r :: skipn (S n) others)%list.
Proof.
  intros H. rewrite rules_eq, <- app_assoc. f_equal.
  revert r H. generalize others as l. induction n as [|n IH]; intros [|x l] r H; try discriminate H; cbn in *.
  - congruence.
  - f_equal; auto.
Qed.
