(** Proofs about literals and the texts of a schema. *)
From Coq Require Import ZArith List Bool String Ascii Lia ZifyBool ZifyNat.
From Verif Require Import M_Base M_Expr M_Scope M_Lit S_Lit P_Base.
Import ListNotations.
Open Scope Z_scope.
Ltac Zify.zify_post_hook ::= Z.div_mod_to_equations.

(** ** Digits *)
Lemma to_digit_spec : forall base c, base <= 16 ->
  to_digit base c = match digit c with Some d => if d <? base then Some d else None | None => None end.
Proof.
  intros base c Hb. destruct c as [b0 b1 b2 b3 b4 b5 b6 b7].
  destruct b0, b1, b2, b3, b4, b5, b6, b7; cbn -[Z.ltb]; try reflexivity;
    unfold to_digit, between, code; cbn -[Z.ltb];
    match goal with |- context [?x <? base] =>
      destruct (Z.ltb_spec x base); try reflexivity; lia end.
Qed.

Lemma digit_range : forall c d, digit c = Some d -> 0 <= d < 16.
Proof.
  intros c d H. destruct c as [b0 b1 b2 b3 b4 b5 b6 b7].
  destruct b0, b1, b2, b3, b4, b5, b6, b7; cbn in H; inversion H; lia.
Qed.

Lemma is_digit_some : forall base c, is_digit base c = true ->
  exists d, digit c = Some d /\ 0 <= d < base.
Proof.
  unfold is_digit. intros base c H. destruct (digit c) as [d|] eqn:E; [|discriminate].
  exists d. split; auto. apply digit_range in E. lia.
Qed.

Lemma pow_len_pos : forall base (s : string), 0 < base -> 0 < base ^ Z.of_nat (String.length s).
Proof. intros. apply Z.pow_pos_nonneg; lia. Qed.

Lemma numeral_nonneg : forall base s, 0 < base -> 0 <= numeral base s.
Proof.
  intros base s Hb. induction s as [|c tl IH]; cbn [numeral]; [lia|].
  pose proof (pow_len_pos base tl Hb). destruct (digit c) as [d|] eqn:E; [|lia].
  apply digit_range in E. nia.
Qed.

(** The loop adds the digits behind what is read already. *)
Lemma digits_loop_spec : forall base hi s acc, 2 <= base <= 16 -> 0 <= acc <= hi ->
  all_digits base s = true ->
  digits_loop base (- hi - 1) hi false acc s
  = let v := acc * base ^ Z.of_nat (String.length s) + numeral base s in
    if v <=? hi then Some v else None.
Proof.
  intros base hi s. induction s as [|c tl IH]; intros acc Hb Ha Hd.
  - cbn. replace (acc * 1 + 0) with acc by lia. destruct (Z.leb_spec acc hi); [reflexivity|lia].
  - cbn [all_digits] in Hd. apply andb_true_iff in Hd as [Hc Hd].
    apply is_digit_some in Hc as (d & Ed & Hr).
    cbn [digits_loop numeral String.length]. rewrite to_digit_spec by lia. rewrite Ed.
    replace (d <? base) with true by lia.
    rewrite Nat2Z.inj_succ, Z.pow_succ_r by lia.
    set (P := base ^ Z.of_nat (String.length tl)).
    assert (HP : 0 < P) by (apply pow_len_pos; lia).
    pose proof (numeral_nonneg base tl ltac:(lia)) as Hn.
    cbv zeta.
    assert (Hmul : 0 <= acc * base) by nia.
    replace (- hi - 1 <=? acc * base) with true by lia.
    destruct (Z.leb_spec (acc * base) hi) as [H1|H1]; cbn [andb].
    + replace (- hi - 1 <=? acc * base + d) with true by lia.
      destruct (Z.leb_spec (acc * base + d) hi) as [H2|H2]; cbn [andb].
      * rewrite IH by (auto; lia). cbv zeta. fold P.
        replace ((acc * base + d) * P + numeral base tl)
          with (acc * (base * P) + (d * P + numeral base tl)) by ring. reflexivity.
      * destruct (Z.leb_spec (acc * (base * P) + (d * P + numeral base tl)) hi); [|reflexivity].
        exfalso. assert ((acc * base + d) * 1 <= (acc * base + d) * P) by nia. nia.
    + destruct (Z.leb_spec (acc * (base * P) + (d * P + numeral base tl)) hi); [|reflexivity].
      exfalso. assert (acc * base * 1 <= acc * base * P) by nia. nia.
Qed.

Lemma digit_not_sign : forall c d, digit c = Some d -> Ascii.eqb c "+" = false /\ Ascii.eqb c "-" = false.
Proof.
  intros c d H. destruct c as [b0 b1 b2 b3 b4 b5 b6 b7].
  destruct b0, b1, b2, b3, b4, b5, b6, b7; cbn in H; try discriminate; split; reflexivity.
Qed.

Lemma from_str_digits : forall sg lo hi base s, digits base s ->
  from_str_radix sg lo hi base s = digits_loop base lo hi false 0 s.
Proof.
  intros sg lo hi base s [Hn Hd]. destruct s as [|c tl]; [congruence|].
  cbn [all_digits] in Hd. apply andb_true_iff in Hd as [Hc _].
  apply is_digit_some in Hc as (d & Ed & _). apply digit_not_sign in Ed as [E1 E2].
  destruct tl; cbn [from_str_radix]; rewrite E1, E2; reflexivity.
Qed.

Lemma i32_parse : forall base s, 2 <= base <= 16 -> digits base s ->
  i32_from_str_radix base s = if numeral base s <=? 2 ^ 31 - 1 then Some (numeral base s) else None.
Proof.
  intros base s Hb Hd. unfold i32_from_str_radix. rewrite from_str_digits by auto.
  replace (- 2 ^ 31) with (- (2 ^ 31 - 1) - 1) by lia.
  rewrite digits_loop_spec; [|lia|lia|apply Hd]. reflexivity.
Qed.

Lemma loop_lo : forall base lo lo' hi s acc, 2 <= base <= 16 -> 0 <= acc -> lo <= 0 -> lo' <= 0 ->
  digits_loop base lo hi false acc s = digits_loop base lo' hi false acc s.
Proof.
  intros base lo lo' hi s. induction s as [|c tl IH]; intros acc Hb Ha Hl Hl'; [reflexivity|].
  cbn [digits_loop]. destruct (to_digit base c) as [d|] eqn:E; [|reflexivity].
  rewrite to_digit_spec in E by lia. destruct (digit c) as [d'|] eqn:Ed; [|discriminate].
  apply digit_range in Ed. destruct (d' <? base); inversion E; subst d'.
  assert (0 <= acc * base) by nia.
  replace (lo <=? acc * base) with true by lia. replace (lo' <=? acc * base) with true by lia.
  replace (lo <=? acc * base + d) with true by lia. replace (lo' <=? acc * base + d) with true by lia.
  destruct (acc * base <=? hi); cbn [andb]; [|reflexivity].
  destruct (acc * base + d <=? hi); cbn [andb]; [|reflexivity].
  apply IH; lia.
Qed.

Lemma u8_parse : forall s, digits 10 s ->
  u8_from_str s = if numeral 10 s <=? 255 then Some (numeral 10 s) else None.
Proof.
  intros s Hd. unfold u8_from_str. rewrite from_str_digits by auto.
  rewrite (loop_lo 10 0 (Z.opp 255 - 1)) by lia.
  rewrite digits_loop_spec; [|lia|lia|apply Hd]. reflexivity.
Qed.

(** ** Trimming *)
Lemma digits_no_prefix : forall base s c x r, base <= 16 -> digit x = None ->
  all_digits base s = true -> drop_prefix (String c (String x r)) s = None.
Proof.
  intros base s c x r Hb Hx Hs. destruct s as [|a [|b tl]]; cbn [drop_prefix]; auto.
  - destruct (Ascii.eqb c a); auto.
  - cbn [all_digits] in Hs. apply andb_true_iff in Hs as [_ Hs].
    apply andb_true_iff in Hs as [Hb2 _]. apply is_digit_some in Hb2 as (d & Ed & _).
    destruct (Ascii.eqb c a); auto. destruct (Ascii.eqb_spec x b); auto. congruence.
Qed.

Lemma trim_hex : forall s, all_digits 16 s = true -> trim_start_matches "0x" (String "0" (String "x" s)) = s.
Proof.
  intros s H.
  change (trim_start_matches "0x" (String "0" (String "x" s)))
    with (trim_start (S (String.length s)) "0x" s).
  cbn [trim_start]. rewrite (digits_no_prefix 16) by (auto; lia). reflexivity.
Qed.

Lemma trim_end_digits : forall base b s, all_digits base s = true -> is_digit base b = false ->
  trim_end_matches b s = s.
Proof.
  intros base b s H Hb. induction s as [|c tl IH]; [reflexivity|].
  cbn [all_digits] in H. apply andb_true_iff in H as [Hc H]. cbn [trim_end_matches].
  rewrite IH by auto. destruct tl; [|reflexivity].
  destruct (Ascii.eqb_spec c b); [congruence|reflexivity].
Qed.

Lemma trim_end_app : forall b s, trim_end_matches b (s ++ String b EmptyString) = trim_end_matches b s.
Proof.
  intros b s. induction s as [|c tl IH]; cbn [append trim_end_matches].
  - rewrite Ascii.eqb_refl. reflexivity.
  - rewrite IH. reflexivity.
Qed.

Lemma trim_end_other : forall b c s, b <> c ->
  trim_end_matches b (s ++ String c EmptyString) = (s ++ String c EmptyString)%string.
Proof.
  intros b c s H. induction s as [|a tl IH]; cbn [append trim_end_matches].
  - destruct (Ascii.eqb_spec c b); [congruence|reflexivity].
  - rewrite IH. destruct tl; reflexivity.
Qed.

Lemma append_nil : forall s : string, (s ++ "")%string = s.
Proof. induction s; cbn; congruence. Qed.

Lemma append_assoc : forall a b c : string, ((a ++ b) ++ c = a ++ b ++ c)%string.
Proof. induction a; cbn; intros; congruence. Qed.

Lemma length_append : forall a b : string, String.length (a ++ b) = (String.length a + String.length b)%nat.
Proof. induction a; cbn; intros; auto. Qed.

Lemma append_last : forall a b x y, (a ++ String x EmptyString = b ++ String y EmptyString)%string ->
  a = b /\ x = y.
Proof.
  induction a as [|c a IH]; intros [|d b] x y H; cbn in H; inversion H; auto.
  - destruct b; discriminate.
  - destruct a; discriminate.
  - destruct (IH _ _ _ H2). subst. auto.
Qed.

(** ** Integer literals *)
Lemma loop_bad : forall base lo hi neg s1 c s2 acc, digit c = None -> base <= 16 ->
  digits_loop base lo hi neg acc (s1 ++ String c s2) = None.
Proof.
  intros base lo hi neg s1 c s2. induction s1 as [|a tl IH]; intros acc Hc Hb; cbn [append digits_loop].
  - rewrite to_digit_spec, Hc by auto. reflexivity.
  - destruct (to_digit base a); auto. repeat match goal with |- (if ?x then _ else _) = _ => destruct x end; auto.
Qed.

Lemma loop_big : forall base lo hi neg s1 c s2 acc, (forall d, digit c = Some d -> base <= d) -> base <= 16 ->
  digits_loop base lo hi neg acc (s1 ++ String c s2) = None.
Proof.
  intros base lo hi neg s1 c s2. induction s1 as [|a tl IH]; intros acc Hc Hb; cbn [append digits_loop].
  - rewrite to_digit_spec by auto. destruct (digit c) as [d|]; auto.
    specialize (Hc d eq_refl). replace (d <? base) with false by lia. reflexivity.
  - destruct (to_digit base a); auto. repeat match goal with |- (if ?x then _ else _) = _ => destruct x end; auto.
Qed.

Lemma digits_cons0 : forall base s, 1 < base -> digits base s -> digits base (String "0" s)
  /\ numeral base (String "0" s) = numeral base s.
Proof.
  intros base s Hb [H1 H2]. split.
  - split; [discriminate|]. cbn [all_digits]. unfold is_digit. cbn [digit].
    replace (0 <? base) with true by lia. exact H2.
  - cbn [numeral digit]. lia.
Qed.

Lemma literal_value : forall t s v, denotes t s v -> v < 2 ^ 31 -> ~ capital t s ->
  visit_literal t s = Ok (LInt v).
Proof.
  intros t s v H Hv Hc. destruct H as [s Hd Hz|x s Hx Hd|s Hd|b s Hx Hd]; cbn [visit_literal].
  - rewrite i32_parse by (auto; lia). replace (numeral 10 s <=? 2 ^ 31 - 1) with true by lia. reflexivity.
  - destruct Hx as [-> | ->]; [|exfalso; apply Hc; constructor].
    rewrite trim_hex by apply Hd. rewrite i32_parse by (auto; lia).
    replace (numeral 16 s <=? 2 ^ 31 - 1) with true by lia. reflexivity.
  - destruct (digits_cons0 8 s ltac:(lia) Hd) as [Hd' En].
    rewrite i32_parse by (auto; lia). rewrite En.
    replace (numeral 8 s <=? 2 ^ 31 - 1) with true by lia. reflexivity.
  - destruct Hx as [-> | ->]; [|exfalso; apply Hc; apply CapBin].
    rewrite trim_end_app, (trim_end_digits 2) by (auto; apply Hd).
    rewrite i32_parse by (auto; lia).
    replace (numeral 2 s <=? 2 ^ 31 - 1) with true by lia. reflexivity.
Qed.

Lemma literal_rejected : forall t s v, denotes t s v -> 2 ^ 31 <= v \/ capital t s ->
  visit_literal t s = Panic.
Proof.
  intros t s v H Hv. destruct H as [s Hd Hz|x s Hx Hd|s Hd|b s Hx Hd]; cbn [visit_literal].
  - destruct Hv as [Hv|Hv]; [|inversion Hv].
    rewrite i32_parse by (auto; lia). replace (numeral 10 s <=? 2 ^ 31 - 1) with false by lia. reflexivity.
  - destruct Hx as [-> | ->].
    + destruct Hv as [Hv|Hv]; [|inversion Hv].
      rewrite trim_hex by apply Hd. rewrite i32_parse by (auto; lia).
      replace (numeral 16 s <=? 2 ^ 31 - 1) with false by lia. reflexivity.
    + unfold trim_start_matches. cbn [String.length trim_start drop_prefix].
      change (Ascii.eqb "0" "0") with true. change (Ascii.eqb "x" "X") with false. cbv iota.
      unfold i32_from_str_radix, from_str_radix.
      change (Ascii.eqb "0" "+") with false. change (Ascii.eqb "0" "-" && true) with false. cbv iota.
      pose proof (loop_bad 16 (- 2 ^ 31) (2 ^ 31 - 1) false (String "0" EmptyString) "X" s 0
                    eq_refl ltac:(lia)) as E.
      cbn [append] in E. rewrite E. reflexivity.
  - destruct Hv as [Hv|Hv]; [|inversion Hv].
    destruct (digits_cons0 8 s ltac:(lia) Hd) as [Hd' En].
    rewrite i32_parse by (auto; lia). rewrite En.
    replace (numeral 8 s <=? 2 ^ 31 - 1) with false by lia. reflexivity.
  - destruct Hx as [-> | ->].
    + destruct Hv as [Hv|Hv].
      * rewrite trim_end_app, (trim_end_digits 2) by (auto; apply Hd).
        rewrite i32_parse by (auto; lia).
        replace (numeral 2 s <=? 2 ^ 31 - 1) with false by lia. reflexivity.
      * exfalso. inversion Hv as [|s' E]. change "B"%string with (String "B" EmptyString) in *.
        apply append_last in H as [_ H]. discriminate.
    + rewrite trim_end_other by discriminate.
      unfold i32_from_str_radix. destruct Hd as [Hn Hd]. destruct s as [|c tl]; [congruence|].
      cbn [append]. cbn [all_digits] in Hd. apply andb_true_iff in Hd as [Hc _].
      apply is_digit_some in Hc as (d & Ed & _). apply digit_not_sign in Ed as [E1 E2].
      assert (E : digits_loop 2 (- 2 ^ 31) (2 ^ 31 - 1) false 0 (String c (tl ++ "B")) = None).
      { change (String c (tl ++ "B")) with (String c tl ++ String "B" EmptyString)%string.
        apply loop_big; [|lia]. intros d' H. inversion H. lia. }
      unfold from_str_radix. rewrite E1, E2. destruct (tl ++ "B")%string; cbn [orb andb]; rewrite E; reflexivity.
Qed.

(** ** Printing *)
Lemma digit_char_digit : forall d, 0 <= d < 16 -> digit (digit_char d) = Some d.
Proof.
  intros d H.
  assert (C : d = 0 \/ d = 1 \/ d = 2 \/ d = 3 \/ d = 4 \/ d = 5 \/ d = 6 \/ d = 7 \/ d = 8 \/ d = 9
    \/ d = 10 \/ d = 11 \/ d = 12 \/ d = 13 \/ d = 14 \/ d = 15) by lia.
  repeat (destruct C as [-> | C]; [reflexivity|]). subst. reflexivity.
Qed.

Lemma digits_of_spec : forall fuel radix v acc, 2 <= radix <= 16 -> 0 <= v < radix ^ Z.of_nat fuel ->
  all_digits radix acc = true -> (1 <= fuel)%nat ->
  digits radix (digits_of fuel radix v acc)
  /\ numeral radix (digits_of fuel radix v acc)
     = v * radix ^ Z.of_nat (String.length acc) + numeral radix acc.
Proof.
  induction fuel as [|k IH]; intros radix v acc Hr Hv Ha Hf; [lia|].
  cbn [digits_of].
  assert (Hm : 0 <= v mod radix < radix) by (apply Z.mod_pos_bound; lia).
  assert (Ed : digit (digit_char (v mod radix)) = Some (v mod radix)) by (apply digit_char_digit; lia).
  assert (Hall : all_digits radix (String (digit_char (v mod radix)) acc) = true).
  { cbn [all_digits]. unfold is_digit. rewrite Ed. replace (v mod radix <? radix) with true by lia. exact Ha. }
  destruct (Z.ltb_spec v radix) as [H|H].
  - split; [split; [discriminate|exact Hall]|].
    cbn [numeral]. rewrite Ed, Z.mod_small by lia. reflexivity.
  - rewrite Nat2Z.inj_succ, Z.pow_succ_r in Hv by lia.
    assert (Hk : (1 <= k)%nat) by (destruct k; [cbn in Hv; lia|lia]).
    assert (Hq : 0 <= v / radix < radix ^ Z.of_nat k).
    { split; [apply Z.div_pos; lia|]. apply Z.div_lt_upper_bound; lia. }
    destruct (IH radix (v / radix) (String (digit_char (v mod radix)) acc) Hr Hq Hall Hk) as [H1 H2].
    split; [exact H1|]. rewrite H2. cbn [String.length numeral]. rewrite Ed.
    rewrite Nat2Z.inj_succ, Z.pow_succ_r by lia.
    rewrite (Z.div_mod v radix) at 3 by lia. ring.
Qed.

Lemma to_digits_spec : forall radix v, 2 <= radix <= 16 -> 0 <= v < 2 ^ 32 ->
  digits radix (to_digits radix v) /\ numeral radix (to_digits radix v) = v.
Proof.
  intros radix v Hr Hv. unfold to_digits.
  assert (Hp : 2 ^ 33 <= radix ^ Z.of_nat 33).
  { change (Z.of_nat 33) with 33. apply Z.pow_le_mono_l. lia. }
  destruct (digits_of_spec 33 radix v EmptyString Hr ltac:(lia) eq_refl ltac:(lia)) as [H1 H2].
  split; [exact H1|]. rewrite H2. cbn. lia.
Qed.

Lemma visit_literal_int : forall t s v l, denotes t s v -> visit_literal t s = Ok l ->
  l = LInt v /\ 0 <= v < 2 ^ 31.
Proof.
  intros t s v l H Hl.
  assert (H0 : 0 <= v) by (destruct H; apply numeral_nonneg; lia).
  destruct (Z_lt_le_dec v (2 ^ 31)) as [Hv|Hv].
  - split; [|lia]. 
    assert (Hc : ~ capital t s).
    { intros C. rewrite (literal_rejected _ _ _ H (or_intror C)) in Hl. discriminate. }
    rewrite (literal_value _ _ _ H Hv Hc) in Hl. congruence.
  - rewrite (literal_rejected _ _ _ H (or_introl Hv)) in Hl. discriminate.
Qed.

Lemma literal_emitted : forall full t s v l, denotes t s v -> visit_literal t s = Ok l -> t <> TkBin ->
  exists txt, literal_text full t l = Ok txt /\ rust_integer txt v.
Proof.
  intros full t s v l H Hl Ht. destruct (visit_literal_int _ _ _ _ H Hl) as [-> Hv].
  assert (Hw : wrap_u 32 v = v) by (unfold wrap_u; apply Z.mod_small; lia).
  destruct H; cbn [literal_text]; [| | |congruence]; eexists; (split; [reflexivity|]).
  - unfold fmt_dec. replace (numeral 10 s <? 0) with false by lia.
    destruct (to_digits_spec 10 (numeral 10 s) ltac:(lia) ltac:(lia)) as [H1 H2].
    rewrite <- H2 at 2. constructor. exact H1.
  - unfold fmt_radix. rewrite Hw. cbn [append].
    destruct (to_digits_spec 16 (numeral 16 s) ltac:(lia) ltac:(lia)) as [H1 H2].
    rewrite <- H2 at 2. constructor. exact H1.
  - unfold fmt_radix. rewrite Hw. cbn [append].
    destruct (to_digits_spec 8 (numeral 8 s) ltac:(lia) ltac:(lia)) as [H1 H2].
    rewrite <- H2 at 2. constructor. exact H1.
Qed.

(** A Rust integer literal denotes one number. *)
Lemma rust_integer_unique : forall s v w, rust_integer s v -> rust_integer s w -> v = w.
Proof.
  assert (Hbad : forall x s, digit x = None -> ~ digits 10 (String "0" (String x s))).
  { intros x s Hx [_ Hd]. cbn [all_digits] in Hd. unfold is_digit at 2 in Hd. rewrite Hx in Hd.
    rewrite andb_false_r in Hd. discriminate. }
  intros s v w H1 H2. destruct H1; inversion H2; subst; auto; exfalso;
    (eapply Hbad; [|eassumption]; reflexivity).
Qed.

(** ** Floating point literals *)
Lemma to_digit10 : forall c, (exists d, to_digit 10 c = Some d) <-> is_digit 10 c = true.
Proof.
  intros c. rewrite to_digit_spec by lia. unfold is_digit. destruct (digit c) as [d|].
  - destruct (d <? 10); split; intros H; auto; try discriminate; [eauto|destruct H; discriminate].
  - split; [intros [d H]; discriminate|discriminate].
Qed.

Definition no_digit_first (s : string) : Prop :=
  match s with EmptyString => True | String c _ => is_digit 10 c = false end.

Lemma take_digits_app : forall s r, all_digits 10 s = true -> no_digit_first r ->
  take_digits (s ++ r) = (s, r).
Proof.
  induction s as [|c tl IH]; intros r Hs Hr; cbn [append].
  - destruct r as [|c tl]; [reflexivity|]. cbn [take_digits]. cbn in Hr.
    destruct (to_digit 10 c) eqn:E; [|reflexivity].
    assert (is_digit 10 c = true) by (apply to_digit10; eauto). congruence.
  - cbn [all_digits] in Hs. apply andb_true_iff in Hs as [Hc Hs]. cbn [take_digits].
    apply to_digit10 in Hc as [d ->]. rewrite IH by auto. reflexivity.
Qed.

Lemma dec_value_spec : forall s acc, all_digits 10 s = true ->
  dec_value acc s = acc * 10 ^ Z.of_nat (String.length s) + numeral 10 s.
Proof.
  induction s as [|c tl IH]; intros acc Hs; cbn [dec_value].
  - cbn. lia.
  - cbn [all_digits] in Hs. apply andb_true_iff in Hs as [Hc Hs].
    apply is_digit_some in Hc as (d & Ed & Hr).
    rewrite to_digit_spec, Ed by lia. replace (d <? 10) with true by lia.
    rewrite IH by auto. cbn [numeral String.length]. rewrite Ed.
    rewrite Nat2Z.inj_succ, Z.pow_succ_r by lia. ring.
Qed.
Lemma dec_value0 : forall s, all_digits 10 s = true -> dec_value 0 s = numeral 10 s.
Proof. intros. rewrite dec_value_spec by auto. lia. Qed.

Lemma digits_no_sign : forall s, digits 10 s -> take_sign s = (false, s).
Proof.
  intros [|c tl] [Hn Hd]; [congruence|]. cbn [all_digits] in Hd. apply andb_true_iff in Hd as [Hc _].
  apply is_digit_some in Hc as (d & Ed & _). apply digit_not_sign in Ed as [E1 E2].
  cbn [take_sign]. rewrite E1, E2. reflexivity.
Qed.

Lemma take_digits_all : forall s, all_digits 10 s = true -> take_digits s = (s, EmptyString).
Proof. intros s H. rewrite <- (append_nil s) at 1. apply take_digits_app; auto. cbn. auto. Qed.

Lemma exponent_parse : forall e k, exponent e k -> parse_exponent e = Some k.
Proof.
  intros e k H. destruct H as [|e s He Hd|e s He Hd|e s He Hd]; [reflexivity| | |];
    cbn [parse_exponent];
    (replace (Ascii.eqb e "e" || Ascii.eqb e "E") with true by (destruct He as [-> | ->]; reflexivity)).
  - rewrite digits_no_sign by auto. rewrite take_digits_all by apply Hd.
    destruct s as [|c tl]; [destruct Hd; congruence|]. rewrite dec_value0 by apply Hd. reflexivity.
  - cbn [take_sign]. change (Ascii.eqb "+" "-") with false. change (Ascii.eqb "+" "+") with true. cbv iota.
    rewrite take_digits_all by apply Hd.
    destruct s as [|c tl]; [destruct Hd; congruence|]. rewrite dec_value0 by apply Hd. reflexivity.
  - cbn [take_sign]. change (Ascii.eqb "-" "-") with true. cbv iota.
    rewrite take_digits_all by apply Hd.
    destruct s as [|c tl]; [destruct Hd; congruence|]. rewrite dec_value0 by apply Hd. reflexivity.
Qed.

Lemma exponent_no_digit : forall e k, exponent e k -> no_digit_first e.
Proof.
  intros e k H. destruct H as [|e s He Hd|e s He Hd|e s He Hd]; cbn; auto;
    destruct He as [-> | ->]; reflexivity.
Qed.
Lemma exponent_no_point : forall e k tl, exponent e k -> e <> String "." tl.
Proof.
  intros e k tl H E. destruct H as [|e s He Hd|e s He Hd|e s He Hd]; inversion E; subst;
    destruct He; discriminate.
Qed.

Lemma digits_append_sign : forall s r, digits 10 s -> take_sign (s ++ r) = (false, (s ++ r)%string).
Proof.
  intros [|c tl] r [Hn Hd]; [congruence|]. cbn [all_digits] in Hd. apply andb_true_iff in Hd as [Hc _].
  apply is_digit_some in Hc as (d & Ed & _). apply digit_not_sign in Ed as [E1 E2].
  cbn [take_sign append]. rewrite E1, E2. reflexivity.
Qed.

Lemma all_digits_app : forall b s f, all_digits b (s ++ f) = all_digits b s && all_digits b f.
Proof. induction s; intros; cbn; auto. rewrite IHs, andb_assoc. reflexivity. Qed.

Lemma double_parse : forall s m k, double s m k -> parse_f64 s = Some (f64_of_dec false m k).
Proof.
  intros s m k H. unfold parse_f64. destruct H as [s e k Hd Hne He|s f e k Hd Hf He|f e k Hd He].
  - rewrite digits_append_sign by auto. rewrite take_digits_app by (try apply Hd; eapply exponent_no_digit; eauto).
    destruct e as [|c tl]; [congruence|].
    destruct (Ascii.eqb_spec c "."); [subst; exfalso; eapply exponent_no_point; eauto|].
    rewrite append_nil, (exponent_parse _ _ He).
    destruct s as [|c0 tl0]; [destruct Hd; congruence|].
    rewrite dec_value0 by apply Hd. cbn [String.length]. rewrite Z.sub_0_r. reflexivity.
  - rewrite digits_append_sign by auto. rewrite take_digits_app by (try apply Hd; reflexivity).
    change (Ascii.eqb "." ".") with true. cbv iota.
    rewrite take_digits_app by (auto; eapply exponent_no_digit; eauto).
    rewrite (exponent_parse _ _ He).
    assert (Ha : all_digits 10 (s ++ f) = true).
    { rewrite all_digits_app. destruct Hd as [_ ->]. exact Hf. }
    destruct (s ++ f)%string eqn:E.
    + destruct s; [destruct Hd; congruence|discriminate].
    + rewrite <- E in *. rewrite dec_value0 by auto. reflexivity.
  - change (take_sign (String "." (f ++ e))) with (false, String "." (f ++ e)). cbv iota beta.
    change (take_digits (String "." (f ++ e))) with (EmptyString, String "." (f ++ e)). cbv iota beta.
    change (Ascii.eqb "." ".") with true. cbv iota.
    rewrite take_digits_app by (try apply Hd; eapply exponent_no_digit; eauto).
    rewrite (exponent_parse _ _ He). cbn [append].
    destruct f as [|c tl]; [destruct Hd; congruence|]. rewrite dec_value0 by apply Hd. reflexivity.
Qed.

(** A suffix is no part of a number. *)
Lemma suffix_not_digit : forall c, c = "f"%char \/ c = "F"%char ->
  to_digit 10 c = None /\ Ascii.eqb c "." = false /\ Ascii.eqb c "e" = false /\ Ascii.eqb c "E" = false
  /\ Ascii.eqb c "-" = false /\ Ascii.eqb c "+" = false.
Proof. intros c [-> | ->]; repeat split; reflexivity. Qed.

Lemma exponent_suffix : forall e k c, exponent e k -> c = "f"%char \/ c = "F"%char ->
  parse_exponent (e ++ String c EmptyString) = None.
Proof.
  intros e k c H Hc. destruct (suffix_not_digit c Hc) as (T & P1 & P2 & P3 & P4 & P5).
  assert (Hnd : no_digit_first (String c EmptyString)).
  { cbn. destruct Hc as [-> | ->]; reflexivity. }
  destruct H as [|e s He Hd|e s He Hd|e s He Hd]; cbn [append parse_exponent].
  - rewrite P2, P3. reflexivity.
  - replace (Ascii.eqb e "e" || Ascii.eqb e "E") with true by (destruct He as [-> | ->]; reflexivity).
    rewrite digits_append_sign by auto. rewrite take_digits_app by (auto; apply Hd).
    destruct s; reflexivity.
  - replace (Ascii.eqb e "e" || Ascii.eqb e "E") with true by (destruct He as [-> | ->]; reflexivity).
    cbn [take_sign]. change (Ascii.eqb "+" "-") with false. change (Ascii.eqb "+" "+") with true. cbv iota.
    rewrite take_digits_app by (auto; apply Hd). destruct s; reflexivity.
  - replace (Ascii.eqb e "e" || Ascii.eqb e "E") with true by (destruct He as [-> | ->]; reflexivity).
    cbn [take_sign]. change (Ascii.eqb "-" "-") with true. cbv iota.
    rewrite take_digits_app by (auto; apply Hd). destruct s; reflexivity.
Qed.

Lemma exponent_app_no_digit : forall e k c, exponent e k -> c = "f"%char \/ c = "F"%char ->
  no_digit_first (e ++ String c EmptyString).
Proof.
  intros e k c H Hc. pose proof (exponent_no_digit _ _ H) as N. destruct e as [|a tl].
  - cbn. destruct Hc as [-> | ->]; reflexivity.
  - exact N.
Qed.

Lemma float_rejected : forall s, float_literal s -> parse_f64 s = None.
Proof.
  intros s H. destruct H as [s m k c H Hc]. unfold parse_f64.
  destruct H as [s e k Hd Hne He|s f e k Hd Hf He|f e k Hd He].
  - rewrite append_assoc. rewrite digits_append_sign by auto.
    rewrite take_digits_app by (try apply Hd; eapply exponent_app_no_digit; eauto).
    destruct e as [|a tl]; [congruence|]. cbn [append].
    destruct (Ascii.eqb_spec a "."); [subst; exfalso; eapply exponent_no_point; eauto|].
    rewrite append_nil. change (String a (tl ++ String c EmptyString)) with (String a tl ++ String c EmptyString)%string.
    rewrite (exponent_suffix _ _ _ He Hc). destruct s; reflexivity.
  - rewrite append_assoc. rewrite digits_append_sign by auto. cbn [append]. rewrite append_assoc.
    rewrite take_digits_app by (try apply Hd; reflexivity).
    change (Ascii.eqb "." ".") with true. cbv iota.
    rewrite take_digits_app by (auto; eapply exponent_app_no_digit; eauto).
    rewrite (exponent_suffix _ _ _ He Hc). destruct (s ++ f)%string; reflexivity.
  - cbn [append]. rewrite append_assoc.
    change (take_sign (String "." (f ++ e ++ String c EmptyString))) with (false, String "." (f ++ e ++ String c EmptyString)). cbv iota beta.
    change (take_digits (String "." (f ++ e ++ String c EmptyString))) with (EmptyString, String "." (f ++ e ++ String c EmptyString)). cbv iota beta.
    change (Ascii.eqb "." ".") with true. cbv iota.
    rewrite take_digits_app by (try apply Hd; eapply exponent_app_no_digit; eauto).
    rewrite (exponent_suffix _ _ _ He Hc). cbn [append]. destruct f; reflexivity.
Qed.

(** ** Strings *)
Lemma substring_prefix : forall s r, substring 0 (String.length s) (s ++ r) = s.
Proof. induction s; intros; cbn; [destruct r; reflexivity|]. rewrite IHs. reflexivity. Qed.

Lemma string_value : forall s, visit_literal TkStr (quote ++ s ++ quote) = Ok (LString s).
Proof.
  intros s. cbn [visit_literal]. unfold quote. cbn [append String.length].
  rewrite length_append. cbn [String.length].
  replace (2 <=? Z.of_nat (S (String.length s + 1))) with true by lia.
  replace (S (String.length s + 1) - 2)%nat with (String.length s) by lia.
  cbn [substring]. rewrite substring_prefix. reflexivity.
Qed.

Lemma simple_escape_letters : forall e c, simple_escape e c ->
  e <> "f"%char /\ e <> "x"%char /\ e <> "u"%char /\ e <> "0"%char /\ e <> "'"%char.
Proof. intros e c H. inversion H; repeat split; discriminate. Qed.

Lemma simple_escape_unique : forall e c d, simple_escape e c -> simple_escape e d -> c = d.
Proof. intros e c d H. inversion H; subst; intros H2; inversion H2; reflexivity. Qed.

Lemma shared_cons : forall s, shared_escapes s -> forall c tl, s = String c tl -> c <> "\"%char ->
  shared_escapes tl.
Proof. intros s H. inversion H; intros ? ? E Hc; inversion E; subst; auto; congruence. Qed.

Lemma rust_reads_string : forall s t, zserio_string s t -> shared_escapes s -> rust_string s t.
Proof.
  intros s t H. induction H; intros Hs.
  - constructor.
  - unfold plain_char in H. rewrite negb_true_iff in H. repeat rewrite orb_false_iff in H.
    destruct H as [[[[H1 H2] H3] H4] H5].
    apply Ascii.eqb_neq in H1. apply Ascii.eqb_neq in H2. apply Ascii.eqb_neq in H4.
    constructor; auto. apply IHzserio_string. eapply shared_cons; eauto.
  - constructor; auto. apply IHzserio_string.
    destruct (simple_escape_letters _ _ H) as (Q1 & Q2 & _). inversion Hs; subst; auto; congruence.
  - exfalso. inversion Hs; subst; [congruence|]. match goal with H : simple_escape _ _ |- _ => inversion H end.
  - apply RsHex; auto. apply IHzserio_string. inversion Hs; subst; auto; [congruence|].
    match goal with H : simple_escape _ _ |- _ => inversion H end.
  - exfalso. inversion Hs; subst; [congruence|]. match goal with H : simple_escape _ _ |- _ => inversion H end.
  - exfalso. inversion Hs; subst; [congruence|]. match goal with H : simple_escape _ _ |- _ => inversion H end.
Qed.

Lemma rust_string_unique : forall s t u, rust_string s t -> rust_string s u -> t = u.
Proof.
  intros s t u H. revert u. induction H; intros u Hu.
  - inversion Hu; reflexivity.
  - inversion Hu; subst; try congruence. f_equal; auto.
  - destruct (simple_escape_letters _ _ H) as (Q1 & Q2 & Q3 & Q4 & Q5).
    inversion Hu; subst; try congruence. f_equal; [eapply simple_escape_unique; eauto|auto].
  - inversion Hu; subst; try congruence.
    + match goal with H : simple_escape _ _ |- _ => inversion H end.
    + f_equal; auto.
  - inversion Hu; subst; try congruence.
    + match goal with H : simple_escape _ _ |- _ => inversion H end.
    + f_equal; auto.
  - inversion Hu; subst; try congruence.
    + match goal with H : simple_escape _ _ |- _ => inversion H end.
    + f_equal; auto.
Qed.

(** Form feeds and unicode escapes are no Rust. *)
Lemma rust_string_feed : forall s t, ~ rust_string (String "\" (String "f" s)) t.
Proof.
  intros s t H. inversion H; subst; try congruence.
  match goal with H : simple_escape _ _ |- _ => inversion H end.
Qed.
Lemma rust_string_unicode : forall s t, ~ rust_string (String "\" (String "u" s)) t.
Proof.
  intros s t H. inversion H; subst; try congruence.
  match goal with H : simple_escape _ _ |- _ => inversion H end.
Qed.
Lemma rust_string_suffix : forall p s, (forall t, ~ rust_string s t) -> shared_escapes p ->
  forall t, ~ rust_string (p ++ s) t.
Proof.
  intros p s Hs Hp. induction Hp as [|c p Hc Hp IH|e c p He Hp IH|a b p Hp IH]; intros t H; cbn [append] in H.
  - eapply Hs; eauto.
  - inversion H; subst; try congruence. eapply IH; eauto.
  - destruct (simple_escape_letters _ _ He) as (Q1 & Q2 & Q3 & Q4 & Q5).
    inversion H; subst; try congruence. eapply IH; eauto.
  - inversion H; subst; try congruence.
    + match goal with H : simple_escape _ _ |- _ => inversion H end.
    + eapply IH; eauto.
Qed.

(** ** Types, alignments, imports *)
Lemma split_once_app : forall c a b, (forall x y, a <> (x ++ String c y)%string) ->
  split_once c (a ++ String c b) = Some (a, b).
Proof.
  intros c a b. induction a as [|d a IH]; intros H; cbn [append split_once].
  - rewrite Ascii.eqb_refl. reflexivity.
  - destruct (Ascii.eqb_spec d c).
    + exfalso. apply (H EmptyString a). cbn. congruence.
    + rewrite IH; [reflexivity|]. intros x y E. apply (H (String d x) y). cbn. congruence.
Qed.
Lemma split_once_digits : forall s, all_digits 10 s = true -> split_once ":" s = None.
Proof.
  induction s as [|c tl IH]; intros H; [reflexivity|]. cbn [all_digits] in H.
  apply andb_true_iff in H as [Hc H]. cbn [split_once]. rewrite IH by auto.
  destruct (Ascii.eqb_spec c ":"); [subst; discriminate|reflexivity].
Qed.

Lemma bit_width : forall n ds targs, n = "bit"%string \/ n = "int"%string -> digits 10 ds ->
  visit_type true (n ++ String ":" ds) targs
  = if numeral 10 ds <=? 255 then Ok (Ty true "" n (numeral 10 ds) targs [] None) else Panic.
Proof.
  intros n ds targs Hn Hd. unfold visit_type.
  assert (E : split_once ":" (n ++ String ":" ds) = Some (n, ds)).
  { destruct Hn as [-> | ->]; reflexivity. }
  rewrite E. unfold until. rewrite split_once_digits by apply Hd. rewrite u8_parse by auto.
  destruct (numeral 10 ds <=? 255); reflexivity.
Qed.

Lemma rsplit_none : forall c s, (forall x y, s <> (x ++ String c y)%string) <-> rsplit_once c s = None.
Proof.
  intros c s. induction s as [|a tl IH]; cbn [rsplit_once].
  - split; auto. intros _ x y. destruct x; discriminate.
  - split.
    + intros H. destruct (rsplit_once c tl) as [[x y]|] eqn:E.
      * exfalso. assert (N : ~ (forall x y, tl <> (x ++ String c y)%string)).
        { intros C. apply IH in C. congruence. }
        apply N. intros x' y' ->. apply (H (String a x') y'). reflexivity.
      * destruct (Ascii.eqb_spec a c); auto. exfalso. apply (H EmptyString tl). cbn. congruence.
    + intros H. destruct (rsplit_once c tl) as [[x y]|] eqn:E; [discriminate|].
      destruct (Ascii.eqb_spec a c); [discriminate|].
      intros x y C. destruct x as [|b x]; cbn in C; inversion C; subst; [congruence|].
      destruct (proj2 IH eq_refl x y eq_refl).
Qed.
Lemma rsplit_some : forall c s p n, rsplit_once c s = Some (p, n) ->
  s = (p ++ String c n)%string /\ (forall x y, n <> (x ++ String c y)%string).
Proof.
  intros c s. induction s as [|a tl IH]; intros p n H; cbn [rsplit_once] in H; [discriminate|].
  destruct (rsplit_once c tl) as [[x y]|] eqn:E.
  - inversion H; subst. destruct (IH _ _ eq_refl) as [-> H2]. split; auto.
  - destruct (Ascii.eqb_spec a c); inversion H; subst. split; auto. apply rsplit_none. exact E.
Qed.

Lemma append_inj_r : forall a b c : string, (a ++ b = a ++ c)%string -> b = c.
Proof. induction a; intros b c H; cbn in H; auto. inversion H; auto. Qed.

Lemma dot_unique : forall c p n p' n', (p ++ String c n = p' ++ String c n')%string ->
  (forall x y, n <> (x ++ String c y)%string) -> (forall x y, n' <> (x ++ String c y)%string) ->
  p = p' /\ n = n'.
Proof.
  intros c p. induction p as [|a p IH]; intros n p' n' H Hn Hn'; destruct p' as [|b p']; cbn in H; inversion H; subst; auto.
  - exfalso. eapply Hn. reflexivity.
  - exfalso. eapply Hn'. reflexivity.
  - destruct (IH _ _ _ H2 Hn Hn') as [-> ->]. auto.
Qed.

Lemma qualified_type : forall p n targs, (forall x y, n <> (x ++ String "." y)%string) ->
  visit_type false (p ++ String "." n) targs = Ok (Ty false p n 0 targs [] None).
Proof.
  intros p n targs Hn. unfold visit_type.
  destruct (rsplit_once "." (p ++ String "." n)) as [[q m]|] eqn:E.
  - destruct (rsplit_some _ _ _ _ E) as [E1 E2]. destruct (dot_unique _ _ _ _ _ E1 Hn E2) as [-> ->]. reflexivity.
  - exfalso. eapply (proj2 (rsplit_none _ _) E). reflexivity.
Qed.
Lemma simple_type : forall n targs, (forall x y, n <> (x ++ String "." y)%string) ->
  visit_type false n targs = Ok (Ty false "" n 0 targs [] None).
Proof. intros n targs Hn. unfold visit_type. rewrite (proj1 (rsplit_none _ _) Hn). reflexivity. Qed.

Lemma alignment_spec : forall s v, denotes TkDec s v ->
  visit_alignment (Some TkDec) s = if v <=? 255 then Ok v else Panic.
Proof.
  intros s v H. unfold visit_alignment. destruct (Z_lt_le_dec v (2 ^ 31)) as [Hv|Hv].
  - rewrite (literal_value _ _ _ H Hv) by (intros C; inversion C).
    cbn [bind]. inversion H; subst. rewrite u8_parse by auto. destruct (numeral 10 s <=? 255); reflexivity.
  - rewrite (literal_rejected _ _ _ H (or_introl Hv)). cbn [bind].
    replace (v <=? 255) with false by lia. reflexivity.
Qed.

Lemma import_spec : forall p n, visit_import (p ++ [n]) false = (p, Some n).
Proof. intros. unfold visit_import. rewrite rev_app_distr. cbn. rewrite rev_involutive. reflexivity. Qed.
