(** Proofs for C73: gaps, and whole texts. *)
From Coq Require Import List Bool String Ascii Arith Lia.
From Verif Require Import M_Lit M_Visit M_Parse M_Lex S_Lex P_Lex P_Lex2 P_Lex3 P_Lex4 P_Lex5.
Import ListNotations.
Local Open Scope string_scope.

(** ** Blanks and line comments *)

Lemma space_next c rest : space c -> best rules (la (String c "" ++ rest)) = Some (TSkip, 1).
Proof.
  intros Hc. pose proof (space_not _ Hc) as (N1 & N2 & N3 & N4 & N5).
  apply (wins_text (String c "") rest _ _ _ (others_at 0 _ eq_refl)); auto; cbn [r_rx].
  - apply rx_ws; eauto.
  - apply before; [|intros q []]. apply word_text_not. eexists _, _. split; [reflexivity|]. auto.
  - intros d tl _ u H. cbn [append] in H. inversion H as [W|x E D|x E|x E _|W|x q E _ _|W|W|W].
    + assert (forall q, In q (map word_rule words) -> ~ matches (r_rx q) (la (String c (String d u)))) as Q.
      { apply word_text_not. eexists _, _. split; [reflexivity|]. auto. }
      apply (Q (word_rule (String c (String d u)))); [apply in_map; auto|]. cbn [r_rx word_rule]. apply sm_lit; auto.
    + discriminate E.
    + injection E as -> _; auto.
    + injection E as -> _; auto.
    + destruct W as (l & E & _). injection E as -> _. apply N5; reflexivity.
    + injection E as -> _. apply N5; reflexivity.
    + destruct W as [_ W]. apply every_cons in W as [W _]; auto.
    + apply double_head in W as (h & x & E & D). injection E as <- _. destruct D; [apply N1, digit_alnum|]; auto.
    + apply float_head in W as (h & x & E & D). injection E as <- _. destruct D; [apply N1, digit_alnum|]; auto.
Qed.
(** What begins with a slash. *)
Lemma class_slash x : class (String "/" x) -> x = "" \/ (exists y, x = String "*" y)
  \/ (exists y, x = String "/" y /\ every (fun c => ~ line_end c) y).
Proof.
  intros H. inversion H as [W|c E D|y E|y E L|W|y q E _ _|W|W|W].
  - left. apply word_slash; auto.
  - injection E as <- ->. auto.
  - cbn in E. injection E as ->. right; left; eauto.
  - cbn in E. injection E as ->. right; right; eauto.
  - destruct W as (l & E & _). discriminate E.
  - discriminate E.
  - destruct W as [_ W]. apply every_cons in W as [W _]. apply alnum_iff in W. discriminate W.
  - apply double_head in W as (h & y & E & D). injection E as <- _. destruct D as [D|D]; [nope D|discriminate].
  - apply float_head in W as (h & y & E & D). injection E as <- _. destruct D as [D|D]; [nope D|discriminate].
Qed.
Lemma slash_words x : x <> "" -> forall q, In q (map word_rule words) -> ~ matches (r_rx q) (la (String "/" x)).
Proof.
  intros Hx q Hq E. apply in_map_iff in Hq as (y & <- & Hy). apply word_rx in E. subst y.
  apply word_slash in Hy; auto.
Qed.
Lemma slash_ws x : x <> "" -> ~ matches ws (la (String "/" x)).
Proof. intros Hx E. apply rx_ws in E as (c & E & _). injection E as _ ->; auto. Qed.
Lemma line_next s rest : every (fun c => ~ line_end c) s -> rest = "" \/ starts_with line_end rest ->
  best rules (la (("//" ++ s) ++ rest)) = Some (TSkip, String.length ("//" ++ s)).
Proof.
  intros Hs Hr. apply (wins_text ("//" ++ s) rest _ _ _ (others_at 4 _ eq_refl)); auto; cbn [r_rx].
  - apply rx_line; eauto.
  - apply before; [apply slash_words; discriminate|]. intros q Hq. unfold others, firstn in Hq. rule_cases Hq; cbn [r_rx].
    + apply slash_ws; discriminate.
    + intros E. apply rx_block in E as (x & E). discriminate E.
    + intros E. apply rx_markdown in E as (x & E). discriminate E.
    + intros E. apply rx_block in E as (x & E). discriminate E.
  - intros c tl E u H. destruct Hr as [->|(d & z & -> & Hd)]; [discriminate E|]. injection E as -> _.
    cbn [append] in H. apply class_slash in H as [H|[(y & H)|(y & H & Hy)]]; try discriminate H.
    injection H as <-. apply every_mid in Hy. auto.
Qed.

(** ** Block comments *)

Lemma best_kind l s k n : (exists q, In q l /\ ends q s n) ->
  (forall q m, In q l -> ends q s m -> m <= n /\ (m = n -> r_kind q = k)) -> best l s = Some (k, n).
Proof.
  intros (q & Hq & He) H. destruct (best l s) as [[k' n']|] eqn:E.
  - apply best_wins in E as (l1 & r & l2 & -> & Hk & Hr & H1 & H2).
    assert (n' <= n /\ (n' = n -> r_kind r = k)) as [A B] by (apply (H r); auto; apply in_or_app; right; left; auto).
    assert (n <= n').
    { apply in_app_or in Hq as [Hq|[<-|Hq]].
      - specialize (H1 _ _ Hq He); lia.
      - rewrite (ends_unique _ _ _ _ He Hr); auto.
      - apply (H2 _ _ Hq He). }
    assert (n' = n) as -> by lia. rewrite <- Hk, B; auto.
  - exfalso. exact (best_none _ _ E _ _ Hq He).
Qed.
(** The first [*/] behind the start of the comment is its end. *)
Lemma comment_end s y z rest : ~ contains "*/" (s ++ "*") -> y ++ "*/" ++ z = s ++ "*/" ++ rest ->
  String.length s <= String.length y.
Proof.
  revert y. induction s as [|c s IH]; intros y N E; [cbn; lia|].
  destruct y as [|d y].
  - exfalso. cbn in E. injection E as <- E. destruct s as [|e s].
    + cbn in E. apply N. injection E; discriminate.
    + injection E as <- _. apply N. exists "", (s ++ "*"). reflexivity.
  - cbn in E. injection E as -> E. cbn. apply le_n_S, IH; [|exact E].
    intros (a & b & Q). apply N. exists (String c a), b. cbn [append]. f_equal. exact Q.
Qed.
Lemma app_cut (a b c d : string) : a ++ b = c ++ d -> String.length a = String.length c -> a = c /\ b = d.
Proof.
  revert c. induction a as [|x a IH]; intros [|y c] E L; cbn in *; try discriminate; auto.
  injection E as -> E. injection L as L. destruct (IH _ E L); split; congruence.
Qed.
Definition opens (p : string) (q : rule) : Prop :=
  r_lazy q = true /\ r_kind q = TSkip /\ forall u, matches (r_rx q) (la u) <-> exists x, u = p ++ x ++ "*/".
Lemma opens_ends p q s rest m : opens p q -> In p ["/**"; "/*!"; "/*"] -> s <> "" -> ~ contains "*/" (s ++ "*") ->
  ends q (la (("/*" ++ s ++ "*/") ++ rest)) m -> m = String.length ("/*" ++ s ++ "*/").
Proof.
  intros (Hl & _ & Hq) Hp Hs N (H1 & H2 & H3). rewrite Hl in H3.
  set (w := "/*" ++ s ++ "*/") in *.
  rewrite la_len in H1.
  destruct (la_split (w ++ rest) (firstn m (la (w ++ rest))) (skipn m (la (w ++ rest)))) as (u & v & E & Eu & Ev).
  { symmetry; apply firstn_skipn. }
  assert (Lu : String.length u = m).
  { rewrite <- la_len, Eu, firstn_length, la_len. lia. }
  rewrite <- Eu in H2. apply Hq in H2 as (x & ->).
  assert (P : exists p', p = "/*" ++ p' /\ String.length p' <= 1 /\ (p' <> "" -> exists c, p' = String c "" /\ exists s', s = String c s')).
  { destruct Hp as [<-|[<-|[<-|[]]]]; [exists "*"|exists "!"|exists ""]; (split; [reflexivity|split; [cbn; lia|]]); [..|congruence].
    all: intros _; eexists; split; [reflexivity|]; destruct s as [|c s]; [congruence|]; subst w; cbn in E; injection E as -> _; eauto. }
  destruct P as (p' & -> & Hp' & Hp2).
  subst w.
  assert (Hge : String.length ("/*" ++ s ++ "*/") <= m).
  { rewrite <- Lu. rewrite !app_ass in E. injection E as E.
    rewrite !sapp_len. assert (String.length s <= String.length (p' ++ x)) as Q.
    { apply (comment_end s (p' ++ x) v rest); auto. rewrite !app_ass. auto. }
    rewrite sapp_len in Q. cbn [String.length]. lia. }
  destruct (Nat.eq_dec m (String.length ("/*" ++ s ++ "*/"))) as [|D]; auto. exfalso.
  apply (H3 (String.length ("/*" ++ s ++ "*/"))); [rewrite la_len, !sapp_len; cbn; lia|lia|].
  rewrite firstn_exact. apply Hq. destruct p' as [|c0 p'].
  - exists s. rewrite !app_ass. reflexivity.
  - destruct Hp2 as (c & Ec & s' & ->); [discriminate|]. rewrite Ec. exists s'. reflexivity.
Qed.
Lemma doc_opens : opens "/**" (Rule TSkip true doc_comment).
Proof. split; [auto|split; [auto|]]. intros u. apply rx_block. Qed.
Lemma markdown_opens : opens "/*!" (Rule TSkip true markdown_comment).
Proof. split; [auto|split; [auto|]]. intros u. apply rx_markdown. Qed.
Lemma block_opens : opens "/*" (Rule TSkip true block_comment).
Proof. split; [auto|split; [auto|]]. intros u. apply rx_block. Qed.

Lemma block_next s rest : s <> "" -> ~ contains "*/" (s ++ "*") ->
  best rules (la (("/*" ++ s ++ "*/") ++ rest)) = Some (TSkip, String.length ("/*" ++ s ++ "*/")).
Proof.
  intros Hs N. set (w := "/*" ++ s ++ "*/"). apply best_kind.
  - exists (Rule TSkip true block_comment). split.
    { rewrite rules_eq. apply in_or_app; right. cbn; auto. }
    pose proof (extent_ok (Rule TSkip true block_comment) (la (w ++ rest))) as E.
    destruct (extent _ _) as [m|].
    + pose proof (opens_ends "/*" _ s rest m block_opens (or_intror (or_intror (or_introl eq_refl))) Hs N E) as ->. exact E.
    + exfalso. apply (E (String.length w)); [rewrite la_len, sapp_len; lia|]. rewrite firstn_exact. apply rx_block. exists s; auto.
  - intros q m Hq He. pose proof He as He0.
    assert (Small : ~ r_lazy q = true -> m <= 1).
    { intros Hlz. destruct He as (H1 & H2 & _).
      destruct (la_split (w ++ rest) (firstn m (la (w ++ rest))) (skipn m (la (w ++ rest)))) as (u & v & E & Eu & Ev).
      { symmetry; apply firstn_skipn. }
      assert (Lu : String.length u = m).
      { rewrite <- la_len, Eu, firstn_length, la_len. rewrite la_len in H1. lia. }
      rewrite <- Eu in H2. destruct u as [|h u]; [cbn in Lu; lia|].
      destruct u as [|h2 u]; [cbn in Lu; lia|]. unfold w in E. cbn in E. injection E as <- <- _. exfalso.
      rewrite rules_eq in Hq. apply in_app_or in Hq as [Hq|Hq].
      - revert H2. apply slash_words; auto; discriminate.
      - unfold others in Hq. rule_cases Hq; cbn [r_rx r_lazy] in *; try congruence.
        + revert H2. apply slash_ws. discriminate.
        + apply rx_line in H2 as (x & E & _). discriminate E.
        + apply rx_bool in H2 as [E|E]; discriminate E.
        + apply rx_string in H2 as (l & E & _). discriminate E.
        + apply rx_binary in H2. apply bin_alnum in H2 as [_ H2]. apply every_cons in H2 as [H2 _]. apply alnum_iff in H2; discriminate.
        + apply rx_octal in H2. apply oct_digits in H2 as [_ H2]. apply every_cons in H2 as [H2 _]. nope H2.
        + apply rx_hex in H2. apply hexlit_alnum in H2 as [_ H2]. apply every_cons in H2 as [H2 _]. apply alnum_iff in H2; discriminate.
        + apply rx_double, double_head in H2 as (c & x & E & [D|D]); injection E as <- _; [nope D|discriminate].
        + apply rx_float, float_head in H2 as (c & x & E & [D|D]); injection E as <- _; [nope D|discriminate].
        + apply rx_decimal in H2. apply dec_digits in H2 as [_ H2]. apply every_cons in H2 as [H2 _]. nope H2.
        + apply rx_name in H2 as (c & x & E & D & _). injection E as <- _. nope D.
        + apply rx_invalid_string in H2 as (x & r & E & _). discriminate E.
        + apply rx_invalid in H2 as [_ H2]. apply every_cons in H2 as [H2 _]. apply alnum_iff in H2; discriminate. }
    assert (2 <= String.length w) by (unfold w; cbn; lia).
    destruct (r_lazy q) eqn:Lz; [|split; [specialize (Small ltac:(discriminate)); lia|specialize (Small ltac:(discriminate)); lia]].
    rewrite rules_eq in Hq. apply in_app_or in Hq as [Hq|Hq].
    { apply in_map_iff in Hq as (x & <- & _). discriminate Lz. }
    unfold others in Hq. rule_cases Hq; cbn [r_lazy] in Lz; try discriminate Lz.
    + pose proof (opens_ends "/**" _ s rest m doc_opens (or_introl eq_refl) Hs N He0) as ->. split; [apply le_n|auto].
    + pose proof (opens_ends "/*!" _ s rest m markdown_opens (or_intror (or_introl eq_refl)) Hs N He0) as ->. split; [apply le_n|auto].
    + pose proof (opens_ends "/*" _ s rest m block_opens (or_intror (or_intror (or_introl eq_refl))) Hs N He0) as ->. split; [apply le_n|auto].
Qed.
Lemma piece_next a rest : gap_piece a rest -> best rules (la (a ++ rest)) = Some (TSkip, String.length a) /\ a <> "".
Proof.
  intros H. destruct H as [c rest H|s rest H1 H2|s rest H1 H2].
  - split; [apply (space_next c rest H)|discriminate].
  - split; [apply line_next; auto|discriminate].
  - split; [apply block_next; auto|discriminate].
Qed.

(** ** Whole texts *)

Lemma skipn_exact (w rest : string) : skipn (String.length w) (la (w ++ rest)) = la rest.
Proof. rewrite la_app, <- la_len, skipn_app, Nat.sub_diag, skipn_all; auto. Qed.
Lemma lex_step n w rest k l : best rules (la (w ++ rest)) = Some (k, String.length w) -> w <> "" -> token_of k (la w) = Some l ->
  lex_from (S n) (la (w ++ rest)) = match lex_from n (la rest) with Parsed ts => Parsed (l ++ ts)%list | x => x end.
Proof.
  intros Hb Hw Ht. pose proof (firstn_exact w rest) as F. pose proof (skipn_exact w rest) as G.
  destruct w as [|c w]; [congruence|]. cbn [lex_from].
  change (la (String c w ++ rest)) with (c :: la (w ++ rest)) in *. rewrite Hb. cbn [String.length] in *. rewrite F, G, Ht. reflexivity.
Qed.
Lemma gap_lex g rest : gap g rest -> forall n, String.length (g ++ rest) < n ->
  exists m, String.length rest < m /\ lex_from n (la (g ++ rest)) = lex_from m (la rest).
Proof.
  induction 1 as [rest|a b rest Ha Hb IH]; intros n Hn.
  - exists n; auto.
  - apply piece_next in Ha as [Ha Hne]. rewrite app_ass in *. destruct n as [|n]; [lia|].
    rewrite (lex_step n a _ TSkip []); auto.
    assert (0 < String.length a) by (destruct a; [congruence|cbn; lia]).
    rewrite sapp_len in Hn. destruct (IH n) as (m & Hm & E); [lia|]. exists m; split; auto.
    rewrite E. destruct (lex_from m (la rest)); auto.
Qed.
Lemma nonempty_text t : token_wf t -> text_of t <> "".
Proof.
  destruct t as [s|k s|s]; cbn; intros H.
  - intros ->. assert (In "" words) as W by (apply in_or_app; auto).
    apply word_cases in W as [(? & ? & E & _)|[(? & E & _)|(? & ? & E & _)]]; discriminate E.
  - destruct k; cbn [literal_text] in H.
    + apply bool_alnum in H as [H _]; auto.
    + apply dec_digits in H as [H _]; auto.
    + apply hexlit_alnum in H as [H _]; auto.
    + apply oct_digits in H as [H _]; auto.
    + apply bin_alnum in H as [H _]; auto.
    + destruct H as (l & -> & _). discriminate.
    + apply float_head in H as (? & ? & -> & _). discriminate.
    + apply double_head in H as (? & ? & -> & _). discriminate.
  - destruct H as [H _]. apply name_alnum in H as [H _]; auto.
Qed.
Lemma token_made t : token_of (kind_of t) (la (text_of t)) = Some [t].
Proof. destruct t; cbn; rewrite string_of_list_ascii_of_string; auto. Qed.
Lemma shows_lex ts s : shows ts s -> Forall token_wf ts -> forall n, String.length s < n -> lex_from n (la s) = Parsed ts.
Proof.
  induction 1 as [g Hg|g t ts rest Hg Hf Hs IH]; intros Hw n Hn.
  - destruct (gap_lex _ _ Hg n) as (m & Hm & E); [rewrite app_nil; auto|]. rewrite app_nil in E. rewrite E.
    destruct m; [lia|reflexivity].
  - inv Hw. destruct (gap_lex _ _ Hg n Hn) as (m & Hm & E). rewrite E. destruct m as [|m]; [lia|].
    pose proof (nonempty_text _ H1) as Ne.
    rewrite (lex_step m _ _ (kind_of t) [t]); auto; [|apply token_next; auto|apply token_made].
    rewrite IH; auto. rewrite sapp_len in Hm. assert (0 < String.length (text_of t)) by (destruct (text_of t); [congruence|cbn; lia]). lia.
Qed.
Lemma lex_shows ts s : Forall token_wf ts -> shows ts s -> lex s = Parsed ts.
Proof. intros Hw Hs. unfold lex. apply shows_lex; auto. Qed.

Lemma space_follows t : token_wf t -> may_follow t " ".
Proof.
  assert (N : ~ Alnum " ") by (rewrite <- alnum_iff; discriminate).
  intros _. destruct t as [s|k s|s]; cbn [may_follow]; auto.
  - repeat split; try discriminate; auto. intros _ D; nope D.
  - destruct k; try split; auto; discriminate.
Qed.
Lemma spaced_cons t ts : spaced (t :: ts) = "" ++ text_of t ++ (" " ++ spaced ts).
Proof. unfold spaced. cbn [map]. rewrite concat_cons, app_ass. reflexivity. Qed.
Lemma shows_gap g ts s : gap_piece g s -> shows ts s -> shows ts (g ++ s).
Proof.
  intros Hg Hs. destruct Hs as [h Hh|h t ts rest Hh Hf Hs].
  - constructor. apply GCons; auto. rewrite app_nil; auto.
  - rewrite <- app_ass. constructor; auto. apply GCons; auto.
Qed.
Lemma spaced_shows ts : Forall token_wf ts -> shows ts (spaced ts).
Proof.
  induction 1 as [|t ts Ht Hts IH].
  - constructor. constructor.
  - rewrite spaced_cons. constructor.
    + constructor.
    + intros c tl E. injection E as <- _. apply space_follows; auto.
    + apply shows_gap; auto. constructor. left; auto.
Qed.
Lemma lex_spaced ts : Forall token_wf ts -> lex (spaced ts) = Parsed ts.
Proof. intros H. apply lex_shows, spaced_shows; auto. Qed.

(** ** What a text that is read consists of *)

Lemma split_unique {A} (P : A -> Prop) (l1 a l2 c : list A) r b :
  (l1 ++ r :: l2 = a ++ b :: c)%list -> P r -> (forall x, In x a -> ~ P x) -> (forall x, In x c -> ~ P x) -> l1 = a.
Proof.
  intros E Hr Ha Hc. revert a E Ha. induction l1 as [|x l1 IH]; intros [|y a] E Ha; cbn in E.
  - auto.
  - injection E as -> _. exfalso. eapply Ha; [left|]; eauto.
  - injection E as _ E. exfalso. eapply Hc; [|exact Hr]. rewrite <- E. apply in_or_app; right; left; auto.
  - injection E as -> E. f_equal. apply IH; auto. intros z Hz. apply Ha; right; auto.
Qed.
Lemma name_position l1 r l2 : rules = (l1 ++ r :: l2)%list -> r_kind r = TName ->
  l1 = (map word_rule words ++ firstn 13 others)%list.
Proof.
  intros E Hr. rewrite (others_at 13 _ eq_refl) in E. symmetry in E.
  apply (split_unique (fun q => r_kind q = TName) _ _ _ _ _ _ E Hr).
  - apply before.
    + intros q Hq. apply in_map_iff in Hq as (x & <- & _). discriminate.
    + intros q Hq. unfold others, firstn in Hq. rule_cases Hq; discriminate.
  - intros q Hq. unfold others, skipn in Hq. rule_cases Hq; discriminate.
Qed.
Lemma plain_ends q w rest : r_lazy q = false ->
  (forall u v, w ++ rest = u ++ v -> matches (r_rx q) (la u) -> String.length u <= String.length w) ->
  matches (r_rx q) (la w) -> ends q (la (w ++ rest)) (String.length w).
Proof.
  intros Hl Hmax Hm. split; [rewrite la_len, sapp_len; lia|split; [rewrite firstn_exact; auto|]].
  rewrite Hl. intros m Hlen Hlt H. rewrite la_len in Hlen.
  destruct (la_split (w ++ rest) (firstn m (la (w ++ rest))) (skipn m (la (w ++ rest)))) as (u & v & E & Eu & Ev).
  { symmetry; apply firstn_skipn. }
  rewrite <- Eu in H. apply (Hmax u v E) in H.
  rewrite <- la_len, Eu, firstn_length, la_len in H. lia.
Qed.
Lemma next_sound w rest k l : best rules (la (w ++ rest)) = Some (k, String.length w) -> token_of k (la w) = Some l ->
  (l = [] /\ skipped w) \/ exists t, l = [t] /\ token_wf t /\ text_of t = w.
Proof.
  intros Hb Ht. apply best_wins in Hb as (l1 & r & l2 & El & Hk & (_ & Hm & _) & H1 & H2).
  rewrite firstn_exact in Hm. assert (In r rules) as Hr by (rewrite El; apply in_or_app; right; left; auto).
  assert (S : string_of_list_ascii (la w) = w) by apply string_of_list_ascii_of_string.
  unfold token_of in Ht. rewrite S in Ht.
  rewrite rules_eq in Hr. apply in_app_or in Hr as [Hr|Hr].
  - apply in_map_iff in Hr as (x & <- & Hx). apply word_rx in Hm as ->. cbn in Hk. subst k. injection Ht as <-.
    right. exists (K x). split; [auto|split; [|auto]]. cbn. apply in_app_or in Hx. auto.
  - unfold others in Hr. rule_cases Hr; cbn [r_rx r_kind] in *; subst k; try (injection Ht as <-).
    + left. apply rx_ws in Hm as (c & -> & Hc). split; auto. constructor; auto.
    + left. apply rx_block in Hm as (x & ->). split; auto. exact (SkBlock ("*" ++ x)).
    + left. apply rx_markdown in Hm as (x & ->). split; auto. exact (SkBlock ("!" ++ x)).
    + left. apply rx_block in Hm as (x & ->). split; auto. constructor.
    + left. apply rx_line in Hm as (x & -> & Hx). split; auto. constructor; auto.
    + right. eexists. split; [reflexivity|split; [apply rx_bool; auto|auto]].
    + right. eexists. split; [reflexivity|split; [apply rx_string; auto|auto]].
    + right. eexists. split; [reflexivity|split; [apply rx_binary; auto|auto]].
    + right. eexists. split; [reflexivity|split; [apply rx_octal; auto|auto]].
    + right. eexists. split; [reflexivity|split; [apply rx_hex; auto|auto]].
    + right. eexists. split; [reflexivity|split; [apply rx_double; auto|auto]].
    + right. eexists. split; [reflexivity|split; [apply rx_float; auto|auto]].
    + right. eexists. split; [reflexivity|split; [apply rx_decimal; auto|auto]].
    + right. eexists. split; [reflexivity|split; [|auto]]. cbn.
      pose proof (name_position _ _ _ El eq_refl) as ->.
      assert (B : forall q, In q (map word_rule words ++ firstn 13 others)%list -> ~ ends q (la (w ++ rest)) (String.length w)).
      { intros q Hq He. specialize (H1 _ _ Hq He). lia. }
      assert (W : ~ In w words).
      { intros Hin. apply (B (word_rule w)); [apply in_or_app; left; apply in_map; auto|].
        apply plain_ends; auto; [|apply sm_lit; auto]. intros u v _ Hu. apply word_rx in Hu as ->; auto. }
      assert (Bo : ~ (w = "true" \/ w = "false")).
      { intros Hin. apply (B (Rule (TLit TkBool) false bool_literal)); [apply in_or_app; right; cbn; tauto|].
        apply plain_ends; auto; [|apply rx_bool; auto]. intros u v E Hu. cbn [r_rx] in Hu. apply rx_bool in Hu.
        destruct Hin as [->| ->], Hu as [->| ->]; auto; discriminate E. }
      split; [apply rx_name; auto|]. split; [intros H; apply W, in_or_app; auto|tauto].
    + discriminate Ht.
    + discriminate Ht.
Qed.

Lemma lex_inv n s ts : lex_from n (la s) = Parsed ts -> (s = "" /\ ts = []) \/
  exists m w rest l tl k, n = S m /\ s = w ++ rest /\ w <> "" /\ best rules (la s) = Some (k, String.length w)
    /\ token_of k (la w) = Some l /\ lex_from m (la rest) = Parsed tl /\ ts = (l ++ tl)%list.
Proof.
  destruct n as [|n]; [discriminate|]. destruct s as [|c s]; [injection 1 as <-; auto|].
  cbn [lex_from]. change (la (String c s)) with (c :: la s) at 1. cbn [lex_from].
  change (c :: la s) with (la (String c s)).
  destruct (best rules (la (String c s))) as [[k [|j]]|] eqn:E; try discriminate.
  destruct (token_of k (firstn (S j) (la (String c s)))) as [l|] eqn:Et; [|discriminate].
  destruct (lex_from n (skipn (S j) (la (String c s)))) as [tl| |] eqn:El; try discriminate.
  intros X; injection X as <-. right.
  destruct (la_split (String c s) (firstn (S j) (la (String c s))) (skipn (S j) (la (String c s)))) as (u & v & Es & Eu & Ev).
  { symmetry; apply firstn_skipn. }
  assert (Hj : S j <= String.length (String c s)).
  { apply best_wins in E as (? & ? & ? & _ & _ & (Hj & _) & _). rewrite la_len in Hj. auto. }
  assert (Lu : String.length u = S j).
  { rewrite <- la_len, Eu, firstn_length, la_len. lia. }
  exists n, u, v, l, tl, k. rewrite Eu, Ev, Lu. repeat (split; [auto|]); auto. destruct u; [discriminate Lu|discriminate].
Qed.
Lemma lazy_skip q : In q rules -> r_lazy q = true -> r_kind q = TSkip.
Proof.
  intros Hq Hl. rewrite rules_eq in Hq. apply in_app_or in Hq as [Hq|Hq].
  - apply in_map_iff in Hq as (x & <- & _). discriminate Hl.
  - unfold others in Hq. rule_cases Hq; cbn [r_lazy r_kind] in *; congruence.
Qed.
Lemma token_rule t : token_wf t -> exists q, In q rules /\ r_lazy q = false /\ matches (r_rx q) (la (text_of t)).
Proof.
  intros Ht. pose proof (token_next t "" Ht ltac:(discriminate)) as E.
  apply best_wins in E as (l1 & r & l2 & El & Hk & (_ & Hm & _) & _). rewrite firstn_exact in Hm.
  assert (In r rules) as Hr by (rewrite El; apply in_or_app; right; left; auto).
  exists r. split; [auto|split; [|auto]]. destruct (r_lazy r) eqn:Hl; auto.
  rewrite (lazy_skip _ Hr Hl) in Hk. destruct t; discriminate Hk.
Qed.
Lemma best_longest w rest k : best rules (la (w ++ rest)) = Some (k, String.length w) -> longest_of w rest.
Proof.
  intros Hb t b Ht E. destruct (token_rule t Ht) as (q & Hq & Hl & Hm).
  pose proof (extent_ok q (la (w ++ rest))) as X. rewrite <- (firstn_exact (text_of t) b), <- E in Hm.
  assert (Hle : String.length (text_of t) <= List.length (la (w ++ rest))) by (rewrite E, la_len, sapp_len; lia).
  destruct (extent q (la (w ++ rest))) as [n|]; [|exfalso; exact (X _ Hle Hm)].
  assert (String.length (text_of t) <= n).
  { destruct (Nat.le_gt_cases (String.length (text_of t)) n) as [|Lt]; auto. exfalso.
    destruct X as (_ & _ & X). rewrite Hl in X. exact (X _ Hle Lt Hm). }
  apply best_wins in Hb as (l1 & r & l2 & El & _ & Hr & H1 & H2).
  assert (n <= String.length w); [|lia].
  rewrite El in Hq. apply in_app_or in Hq as [Hq|[<-|Hq]].
  - specialize (H1 _ _ Hq X); lia.
  - rewrite (ends_unique _ _ _ _ X Hr); auto.
  - exact (H2 _ _ Hq X).
Qed.
Lemma lex_consists n : forall s ts, lex_from n (la s) = Parsed ts -> consists_of ts s.
Proof.
  induction n as [|n IH]; intros s ts H; [discriminate H|].
  apply lex_inv in H as [[-> ->]|(m & w & rest & l & tl & k & En & -> & Hw & Hb & Ht & Hl & ->)]; [constructor|].
  injection En as <-. apply IH in Hl. pose proof (best_longest _ _ _ Hb) as Hlong.
  destruct (next_sound _ _ _ _ Hb Ht) as [[-> Hs]|(t & -> & Wt & <-)]; cbn [app]; [apply CoSkip|apply CoTok]; auto.
Qed.
Lemma lex_sound s ts : lex s = Parsed ts -> consists_of ts s.
Proof. apply lex_consists. Qed.
Lemma lex_wf s ts : lex s = Parsed ts -> Forall token_wf ts.
Proof. intros H. apply lex_sound in H. induction H; auto. Qed.
Lemma lex_fuel n : forall s, List.length s < n -> lex_from n s <> Fuel.
Proof.
  induction n as [|n IH]; intros s Hn; [lia|]. destruct s as [|c s]; [discriminate|].
  cbn [lex_from]. destruct (best rules (c :: s)) as [[k [|j]]|]; try discriminate.
  destruct (token_of k _); [|discriminate].
  specialize (IH (skipn (S j) (c :: s))). destruct (lex_from n _); try discriminate.
  apply IH. cbn [skipn List.length] in *. rewrite skipn_length. lia.
Qed.
Lemma lex_total s : lex s <> Fuel.
Proof. apply lex_fuel. rewrite la_len. lia. Qed.
