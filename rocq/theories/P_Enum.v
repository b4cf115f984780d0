(** Proofs about enum items, bitmask constants and the mixing of integer types. *)
From Coq Require Import ZArith List Bool String Lia.
From Verif Require Import M_Base M_Bits M_Expr S_Expr P_Base P_Bits P_Expr P_Expr2.
Import ListNotations.
Open Scope Z_scope.

Lemma asks_eval b fuel sc e z : asks (Some e) (Some z) ->
  exists r, eval b fuel sc e = Ok r /\ e_rt r = TInt z /\ e_full r = true
            /\ - 2 ^ 31 <= z < 2 ^ 31.
Proof.
  intros (C & K & M). destruct (const_computed b fuel sc e CI C K) as (r & E & V & F).
  exists r. split; [assumption|]. rewrite M in V.
  apply all_sub_here in K. destruct K as [K _]. unfold exact32 in K. rewrite M in K.
  destruct (e_rt r); try discriminate. injection V as ->. auto.
Qed.

Lemma eval_items_asked b fuel sc items asked : Forall2 asks items asked ->
  eval_items b fuel sc items = Ok (map (option_map TInt) asked).
Proof.
  induction 1 as [|it v items asked H _ IH]; [reflexivity|].
  destruct it as [e|], v as [z|]; try contradiction; cbn [eval_items map option_map].
  - destruct (asks_eval b fuel sc e z H) as (r & E & R & _). rewrite E. cbn [bind].
    rewrite IH. cbn [bind]. now rewrite R.
  - now rewrite IH.
Qed.

Lemma enum_loop_spec b asked : forall prev,
  (forall v, In v (enum_spec prev asked) -> - 2 ^ 31 <= v < 2 ^ 31 - 1) ->
  enum_loop b (prev + 1) (map (option_map TInt) asked) = Ok (enum_spec prev asked).
Proof.
  induction asked as [|[v|] tl IH]; intros prev H; [reflexivity| |];
    cbn [map option_map enum_loop enum_spec bind] in *.
  - rewrite arith_s_in by (apply in_s32; specialize (H v (or_introl eq_refl)); lia).
    cbn [bind]. rewrite IH by (intros w W; apply H; now right). reflexivity.
  - rewrite arith_s_in by (apply in_s32; specialize (H (prev + 1) (or_introl eq_refl)); lia).
    cbn [bind]. rewrite IH by (intros w W; apply H; now right). reflexivity.
Qed.

Lemma enum_loop_debug asked : forall prev vs,
  (forall v, In (Some v) asked -> - 2 ^ 31 <= v < 2 ^ 31) ->
  - 2 ^ 31 <= prev + 1 < 2 ^ 31 ->
  enum_loop Debug (prev + 1) (map (option_map TInt) asked) = Ok vs ->
  vs = enum_spec prev asked /\ forall v, In v vs -> - 2 ^ 31 <= v < 2 ^ 31 - 1.
Proof.
  induction asked as [|[v|] tl IH]; intros prev vs B P H;
    cbn [map option_map enum_loop enum_spec bind] in *.
  - injection H as <-. split; [reflexivity|intros ? []].
  - apply bind_ok in H as (n & N & H). apply bind_ok in H as (ws & W & H). injection H as <-.
    destruct (arith_s_debug (v + 1)) as [[R E]|[R E]]; rewrite E in N; [|discriminate].
    injection N as <-.
    destruct (IH v ws) as [-> K]; try assumption.
    { intros w Hw. apply B. now right. }
    split; [reflexivity|]. intros w [<-|Hw]; [|now apply K].
    specialize (B v (or_introl eq_refl)). lia.
  - apply bind_ok in H as (n & N & H). apply bind_ok in H as (ws & W & H). injection H as <-.
    destruct (arith_s_debug (prev + 1 + 1)) as [[R E]|[R E]]; rewrite E in N; [|discriminate].
    injection N as <-.
    destruct (IH (prev + 1) ws) as [-> K]; try assumption.
    { intros w Hw. apply B. now right. }
    split; [reflexivity|]. intros w [<-|Hw]; [|now apply K]. lia.
Qed.

Theorem enum_values_spec b fuel sc items asked : Forall2 asks items asked ->
  (forall v, In v (enum_spec (-1) asked) -> - 2 ^ 31 <= v < 2 ^ 31 - 1) ->
  enum_values b fuel sc items = Ok (enum_spec (-1) asked).
Proof.
  intros A H. unfold enum_values. rewrite (eval_items_asked b fuel sc items asked A).
  exact (enum_loop_spec b asked (-1) H).
Qed.

Lemma asked_range items asked : Forall2 asks items asked ->
  forall v, In (Some v) asked -> - 2 ^ 31 <= v < 2 ^ 31.
Proof.
  induction 1 as [|it w items asked H _ IH]; intros v; cbn [In]; [tauto|].
  intros [->|K]; [|now apply IH]. destruct it as [e|]; [|contradiction].
  destruct H as (_ & K & M). apply all_sub_here in K. destruct K as [K _].
  unfold exact32 in K. now rewrite M in K.
Qed.

Theorem enum_values_debug fuel sc items asked vs : Forall2 asks items asked ->
  enum_values Debug fuel sc items = Ok vs ->
  vs = enum_spec (-1) asked /\ forall v, In v vs -> - 2 ^ 31 <= v < 2 ^ 31 - 1.
Proof.
  intros A H. unfold enum_values in H. rewrite (eval_items_asked Debug fuel sc items asked A) in H.
  cbn [bind] in H. apply (enum_loop_debug asked (-1) vs).
  - exact (asked_range items asked A).
  - lia.
  - exact H.
Qed.

(** A named constant is worth 0 whatever its value. *)
Theorem enum_named_constant b fuel sc n t : sc_resolve sc n false = Some (SyConst t) ->
  tr_builtin t = true -> In (tr_name t) mixable ->
  enum_values b (S fuel) sc [Some (EId n)] = Ok [0]
  /\ bitmask_values b (S fuel) sc [Some (EId n)] = Ok [0].
Proof.
  intros R B M.
  assert (E : eval b (S fuel) sc (EId n) = Ok (Ev (TInt 0) (Some (native (tr_name t)))
     (Some (SyConst t)) false)).
  { cbn [eval]. rewrite R. cbn [sym_type]. rewrite B. cbn [In mixable] in M.
    repeat (destruct M as [<-|M]; [reflexivity|]). destruct M. }
  unfold enum_values, bitmask_values. cbn [eval_items bitmask_loop]. rewrite E.
  destruct b; split; reflexivity.
Qed.

(** ** The conversion from integers *)

Lemma position_sound v vals i : position v vals = Some i -> nth_error vals i = Some v.
Proof.
  revert i. induction vals as [|x tl IH]; intros i H; [discriminate|]. cbn [position] in H.
  destruct (Z.eqb_spec v x) as [<-|].
  - injection H as <-. reflexivity.
  - destruct (position v tl) as [k|]; [|discriminate]. injection H as <-. now apply IH.
Qed.

Lemma position_complete vals : NoDup vals -> forall i v, nth_error vals i = Some v ->
  position v vals = Some i.
Proof.
  induction 1 as [|x tl N D IH]; intros i v H; [destruct i; discriminate|].
  destruct i as [|i]; cbn [nth_error position] in *.
  - injection H as <-. now rewrite Z.eqb_refl.
  - destruct (Z.eqb_spec v x) as [<-|].
    + exfalso. apply N. now apply nth_error_In in H.
    + now rewrite (IH i v H).
Qed.

Lemma position_none v vals : position v vals = None <-> ~ In v vals.
Proof.
  induction vals as [|x tl IH]; cbn [position In]; [tauto|].
  destruct (Z.eqb_spec v x) as [<-|].
  - split; [discriminate|tauto].
  - destruct (position v tl); split; intros H.
    + discriminate.
    + exfalso. assert (K : ~ In v tl) by tauto. apply IH in K. discriminate.
    + intros [K|K]; [congruence|]. now apply IH in K.
    + reflexivity.
Qed.

(** ** Bitmask constants *)

Lemma wrap_u64 v : 0 <= v < 2 ^ 64 -> wrap_u 64 v = v.
Proof. intros. unfold wrap_u. now apply Z.mod_small. Qed.

Lemma next_wrap v : 0 <= next_bit v < 2 ^ 64 ->
  (if v =? 0 then 1 else wrap_u 64 (2 * v)) = next_bit v.
Proof.
  unfold next_bit. destruct (v =? 0); [reflexivity|]. apply wrap_u64.
Qed.

Lemma bitmask_loop_spec b fuel sc items asked : Forall2 asks items asked ->
  forall prev,
  (forall v, In (Some v) asked -> 0 <= v) ->
  0 <= next_bit prev < 2 ^ 64 ->
  (forall v, In v (removelast (bitmask_spec prev asked)) -> v < 2 ^ 63) ->
  (bitmask_increasing prev asked ->
     bitmask_loop b fuel sc (next_bit prev) items = Ok (bitmask_spec prev asked))
  /\ (~ bitmask_increasing prev asked ->
     bitmask_loop b fuel sc (next_bit prev) items = Panic).
Proof.
  induction 1 as [|it w items asked H T IH]; intros prev NN P B.
  { split; [reflexivity|]. cbn. tauto. }
  assert (K : exists v, 0 <= v < 2 ^ 64
     /\ bitmask_spec prev (w :: asked) = v :: bitmask_spec v asked
     /\ (bitmask_increasing prev (w :: asked) <->
         (match w with None => True | _ => v = 0 \/ next_bit prev <= v end)
         /\ bitmask_increasing v asked)
     /\ bitmask_loop b fuel sc (next_bit prev) (it :: items)
        = (do x <- (match w with
                    | None => Ok v
                    | _ => if (v <? next_bit prev) && negb (v =? 0) then Panic else Ok v
                    end) ;
           do vs <- bitmask_loop b fuel sc (if x =? 0 then 1 else wrap_u 64 (2 * x)) items ;
           Ok (x :: vs))).
  { destruct it as [e|], w as [z|]; try contradiction.
    - destruct (asks_eval b fuel sc e z H) as (r & E & R & _ & Z31).
      assert (0 <= z) by (apply NN; now left).
      exists z. split; [lia|]. split; [reflexivity|]. split; [reflexivity|].
      cbn [bitmask_loop]. rewrite E. cbn [bind]. rewrite R. rewrite wrap_u64 by lia. reflexivity.
    - exists (next_bit prev). split; [assumption|]. split; [reflexivity|].
      split; [cbn; tauto|]. reflexivity. }
  destruct K as (v & Rv & Sp & In & Lo). rewrite Lo, Sp. rewrite Sp in B. clear Lo Sp.
  assert (Step : forall ok : Prop, ok ->
    (bitmask_increasing prev (w :: asked) <-> ok /\ bitmask_increasing v asked) ->
    (bitmask_increasing prev (w :: asked) ->
      (do vs <- bitmask_loop b fuel sc (if v =? 0 then 1 else wrap_u 64 (2 * v)) items;
       Ok (v :: vs)) = Ok (v :: bitmask_spec v asked)) /\
    (~ bitmask_increasing prev (w :: asked) ->
      (do vs <- bitmask_loop b fuel sc (if v =? 0 then 1 else wrap_u 64 (2 * v)) items;
       Ok (v :: vs)) = Panic)).
  { intros ok Hok Eq. destruct T as [|it' w' items asked H' T].
    - split; [reflexivity|]. intros C. exfalso. apply C. apply Eq. split; [assumption|exact I].
    - assert (NB : 0 <= next_bit v < 2 ^ 64).
      { assert (v < 2 ^ 63).
        { apply B. destruct w'; cbn [bitmask_spec]; now left. }
        unfold next_bit. destruct (v =? 0); lia. }
      rewrite next_wrap by assumption.
      destruct (IH v) as [IH1 IH2].
      { intros u U. apply NN. now right. }
      { assumption. }
      { intros u U. apply B.
        destruct w'; cbn [bitmask_spec] in *; cbn [removelast] in *; right; assumption. }
      split; intros C.
      + rewrite IH1 by (apply Eq in C; tauto). reflexivity.
      + rewrite IH2; [reflexivity|]. intros C'. apply C. apply Eq. tauto. }
  destruct w as [z|].
  - destruct ((v <? next_bit prev) && negb (v =? 0)) eqn:C; cbn [bind].
    + split; [|reflexivity]. intros K. apply In in K as [[->|K] _].
      * cbn in C. rewrite andb_false_r in C. discriminate.
      * apply andb_true_iff in C as [C _]. lia.
    + apply (Step (v = 0 \/ next_bit prev <= v)); [|assumption].
      apply andb_false_iff in C as [C|C]; [right; lia|left].
      destruct (Z.eqb_spec v 0); [assumption|discriminate].
  - cbn [bind]. apply (Step True); tauto.
Qed.

Theorem bitmask_values_spec b fuel sc items asked : Forall2 asks items asked ->
  (forall v, In (Some v) asked -> 0 <= v) ->
  (forall v, In v (removelast (bitmask_spec 0 asked)) -> v < 2 ^ 63) ->
  (bitmask_increasing 0 asked ->
     bitmask_values b fuel sc items = Ok (bitmask_spec 0 asked))
  /\ (~ bitmask_increasing 0 asked -> bitmask_values b fuel sc items = Panic).
Proof.
  intros A N B. apply (bitmask_loop_spec b fuel sc items asked A 0 N); [|assumption].
  cbn. lia.
Qed.

(** No explicit value. *)
Lemma bitmask_repeat prev n : 0 < prev ->
  bitmask_spec prev (repeat None n) = map (fun i => prev * 2 ^ (Z.of_nat i + 1)) (seq 0 n).
Proof.
  revert prev. induction n as [|n IH]; intros prev P; [reflexivity|].
  cbn [repeat bitmask_spec seq map]. assert (next_bit prev = 2 * prev) as ->.
  { unfold next_bit. destruct (Z.eqb_spec prev 0); lia. }
  f_equal; [change (Z.of_nat 0 + 1) with 1; rewrite Z.pow_1_r; lia|].
  rewrite IH by lia. rewrite <- seq_shift, map_map. apply map_ext. intros i.
  rewrite Nat2Z.inj_succ. replace (Z.succ (Z.of_nat i) + 1) with (1 + (Z.of_nat i + 1)) by lia.
  rewrite (Z.pow_add_r 2 1) by lia. lia.
Qed.

Lemma asks_repeat n : Forall2 asks (repeat None n) (repeat None n).
Proof. induction n; constructor; [exact I|assumption]. Qed.

Lemma increasing_repeat prev n : bitmask_increasing prev (repeat None n).
Proof. revert prev. induction n; intros; cbn [repeat bitmask_increasing]; auto. Qed.

Lemma bitmask_repeat0 n :
  bitmask_spec 0 (repeat None n) = map (fun i => 2 ^ Z.of_nat i) (seq 0 n).
Proof.
  destruct n as [|n]; [reflexivity|]. cbn [repeat bitmask_spec seq map].
  change (next_bit 0) with 1. f_equal. rewrite bitmask_repeat by lia.
  rewrite <- seq_shift, map_map. apply map_ext. intros i.
  rewrite Nat2Z.inj_succ. rewrite Z.mul_1_l. f_equal.
Qed.

Theorem bitmask_implicit b fuel sc n : Z.of_nat n <= 64 ->
  bitmask_values b fuel sc (repeat None n) = Ok (map (fun i => 2 ^ Z.of_nat i) (seq 0 n)).
Proof.
  intros N. rewrite <- bitmask_repeat0.
  apply (bitmask_values_spec b fuel sc (repeat None n) (repeat None n) (asks_repeat n)).
  - intros v H. apply repeat_spec in H. discriminate.
  - intros v H. rewrite bitmask_repeat0 in H. destruct n as [|n]; [contradiction|].
    rewrite seq_S, map_app in H. cbn [map] in H. rewrite removelast_last in H.
    apply in_map_iff in H as (i & <- & I). apply in_seq in I.
    apply Z.pow_lt_mono_r; lia.
  - apply increasing_repeat.
Qed.

(** Powers of two only. *)
Lemma pow2_pos v : pow2 v -> 0 < v.
Proof. intros (k & K & ->). apply Z.pow_pos_nonneg; lia. Qed.

Lemma pow2_next v : pow2 v -> pow2 (next_bit v).
Proof.
  intros H. pose proof (pow2_pos v H). unfold next_bit. destruct (Z.eqb_spec v 0); [lia|].
  destruct H as (k & K & ->). exists (k + 1). split; [lia|].
  rewrite Z.pow_add_r by lia. lia.
Qed.

Lemma pow2_next' v : v = 0 \/ pow2 v -> pow2 (next_bit v) /\ v < next_bit v.
Proof.
  intros [-> |H].
  - split; [exists 0; cbn; lia|cbn; lia].
  - split; [now apply pow2_next|]. pose proof (pow2_pos v H).
    unfold next_bit. destruct (Z.eqb_spec v 0); lia.
Qed.

Lemma pow2_disjoint a b : pow2 a -> pow2 b -> a <> b -> Z.land a b = 0.
Proof.
  intros (j & J & ->) (k & K & ->) N. apply Z.bits_inj'. intros n Hn.
  rewrite Z.land_spec, Z.bits_0, !Z.pow2_bits_eqb by lia.
  destruct (Z.eqb_spec j n), (Z.eqb_spec k n); subst; try reflexivity. congruence.
Qed.

Lemma bitmask_pow2 asked : (forall v, In (Some v) asked -> pow2 v) ->
  forall prev, (prev = 0 \/ pow2 prev) -> bitmask_increasing prev asked ->
  Forall (fun v => pow2 v /\ prev < v) (bitmask_spec prev asked)
  /\ ForallOrdPairs (fun a b => Z.land a b = 0 /\ a < b) (bitmask_spec prev asked).
Proof.
  induction asked as [|[v|] tl IH]; intros H prev P K; cbn [bitmask_spec bitmask_increasing] in *.
  - split; constructor.
  - assert (V : pow2 v) by (apply H; now left). pose proof (pow2_pos v V).
    destruct K as [[->|K] K']; [lia|].
    destruct (pow2_next' prev P) as [_ L].
    destruct (IH ltac:(intros w W; apply H; now right) v (or_intror V) K') as [A B].
    split; constructor; try assumption.
    + split; [assumption|lia].
    + eapply Forall_impl; [|exact A]. cbn. intros w [W1 W2]. split; [assumption|lia].
    + eapply Forall_impl; [|exact A]. cbn. intros w [W1 W2]. split; [|assumption].
      apply pow2_disjoint; try assumption. lia.
  - destruct (pow2_next' prev P) as [V L].
    destruct (IH ltac:(intros w W; apply H; now right) (next_bit prev) (or_intror V) K) as [A B].
    split; constructor; try assumption.
    + split; [assumption|lia].
    + eapply Forall_impl; [|exact A]. cbn. intros w [W1 W2]. split; [assumption|lia].
    + eapply Forall_impl; [|exact A]. cbn. intros w [W1 W2]. split; [|assumption].
      apply pow2_disjoint; try assumption. lia.
Qed.

(** A negative value becomes a huge constant. *)
Theorem bitmask_negative b fuel sc e z : asks (Some e) (Some z) -> z < 0 ->
  bitmask_values b fuel sc [Some e] = Ok [2 ^ 64 + z].
Proof.
  intros A N. destruct (asks_eval b fuel sc e z A) as (r & E & R & _ & B).
  unfold bitmask_values. cbn [bitmask_loop]. rewrite E. cbn [bind]. rewrite R.
  assert (wrap_u 64 z = 2 ^ 64 + z) as ->.
  { unfold wrap_u. rewrite <- (Z.mod_add z 1) by lia.
    rewrite Z.mod_small by lia. lia. }
  destruct (Z.ltb_spec (2 ^ 64 + z) 1); [lia|]. reflexivity.
Qed.

(** ** Mixing integer types *)

Theorem mix_mixable a b : In a mixable -> In b mixable ->
  exists c sa wa sb wb,
    rust_int_type a = Some (sa, wa) /\ rust_int_type b = Some (sb, wb)
    /\ mix_int (Some (native a)) (Some (native b)) = Ok (Some (native c))
    /\ rust_int_type c = Some (sa && sb, Z.max wa wb).
Proof.
  cbn [In mixable]. intros A B.
  repeat (destruct A as [<-|A];
    [repeat (destruct B as [<-|B]; [do 5 eexists; repeat split; reflexivity|]); destruct B|]).
  destruct A.
Qed.

Lemma assoc_none {A} (l : list (string * A)) k : ~ In k (map fst l) -> assoc l k = None.
Proof.
  induction l as [|[k' v] tl IH]; cbn [map fst In assoc]; [reflexivity|]. intros H.
  destruct (String.eqb_spec k k') as [<-|]; [tauto|]. apply IH. tauto.
Qed.

Theorem mix_other a b : same_native a b = false ->
  ~ In (tr_name a) mixable \/ ~ In (tr_name b) mixable ->
  mix_int (Some a) (Some b) = Panic.
Proof.
  intros S H. cbn [mix_int]. rewrite S. unfold is_signed.
  assert (T : forall n, ~ In n mixable -> assoc signed_table n = None).
  { intros n N. apply assoc_none. exact N. }
  destruct (assoc signed_table (tr_name a)) eqn:Ea; [|reflexivity]. cbn [bind].
  destruct (assoc signed_table (tr_name b)) eqn:Eb; [|reflexivity].
  destruct H as [H|H]; apply T in H; congruence.
Qed.

Lemma mix_preserves a b c sa wa sb wb v :
  rust_int_type a = Some (sa, wa) -> rust_int_type b = Some (sb, wb) ->
  rust_int_type c = Some (sa && sb, Z.max wa wb) -> sa = sb ->
  in_type (sa, wa) v \/ in_type (sb, wb) v -> in_type (sa && sb, Z.max wa wb) v.
Proof.
  intros _ _ _ <- H. rewrite andb_diag. unfold in_type in *. cbn [fst snd] in *.
  assert (M1 : wa <= Z.max wa wb) by lia. assert (M2 : wb <= Z.max wa wb) by lia.
  destruct sa.
  - pose proof (Z.pow_le_mono_r 2 (wa - 1) (Z.max wa wb - 1) ltac:(lia) ltac:(lia)).
    pose proof (Z.pow_le_mono_r 2 (wb - 1) (Z.max wa wb - 1) ltac:(lia) ltac:(lia)).
    lia.
  - pose proof (Z.pow_le_mono_r 2 wa (Z.max wa wb) ltac:(lia) M1).
    pose proof (Z.pow_le_mono_r 2 wb (Z.max wa wb) ltac:(lia) M2). lia.
Qed.

Theorem mix_same_sign a b sa wa sb wb : In a mixable -> In b mixable ->
  rust_int_type a = Some (sa, wa) -> rust_int_type b = Some (sb, wb) -> sa = sb ->
  exists c t, mix_int (Some (native a)) (Some (native b)) = Ok (Some (native c))
    /\ rust_int_type c = Some t
    /\ forall v, in_type (sa, wa) v \/ in_type (sb, wb) v -> in_type t v.
Proof.
  intros A B Ra Rb S. destruct (mix_mixable a b A B) as (c & sa' & wa' & sb' & wb' & Ra' & Rb' & M & Rc).
  rewrite Ra in Ra'. rewrite Rb in Rb'. injection Ra' as <- <-. injection Rb' as <- <-.
  exists c, (sa && sb, Z.max wa wb). split; [assumption|]. split; [assumption|].
  intros v. exact (mix_preserves a b c sa wa sb wb v Ra Rb Rc S).
Qed.

Theorem mix_symmetric a b : In a mixable -> In b mixable ->
  exists c d t, mix_int (Some (native a)) (Some (native b)) = Ok (Some (native c))
    /\ mix_int (Some (native b)) (Some (native a)) = Ok (Some (native d))
    /\ rust_int_type c = Some t /\ rust_int_type d = Some t.
Proof.
  intros A B. destruct (mix_mixable a b A B) as (c & sa & wa & sb & wb & Ra & Rb & M & Rc).
  destruct (mix_mixable b a B A) as (d & sb' & wb' & sa' & wa' & Rb' & Ra' & M' & Rd).
  rewrite Ra in Ra'. rewrite Rb in Rb'. injection Ra' as <- <-. injection Rb' as <- <-.
  exists c, d, (sa && sb, Z.max wa wb). repeat split; try assumption.
  rewrite Rd. now rewrite andb_comm, Z.max_comm.
Qed.

Theorem const_abort fuel sc e t : const e t -> shifts_exact e -> ~ computable32 e ->
  eval Debug fuel sc e = Panic.
Proof.
  intros C S N. pose proof (const_good fuel sc e t C S) as G.
  destruct (eval Debug fuel sc e); cbn [good] in G; tauto.
Qed.

Theorem field_plus_max fuel sc n t : sc_resolve sc n false = Some (SyField t) ->
  tr_builtin t = true -> In (tr_name t) mixable ->
  eval Debug (S fuel) sc (EBin BPlus (EId n) (ELit (LInt (2 ^ 31 - 1)))) = Panic.
Proof.
  intros R B M. cbn [eval]. rewrite R. cbn [sym_type]. rewrite B. cbn [In mixable] in M.
  repeat (destruct M as [<-|M]; [reflexivity|]). destruct M.
Qed.

Lemma float_cases n w : float_width n = Some w ->
  n = "float16"%string /\ w = 16 \/ n = "float32"%string /\ w = 32 \/ n = "float64"%string /\ w = 64.
Proof.
  unfold float_width.
  destruct (String.eqb_spec n "float16"); [intros E; injection E; auto|].
  destruct (String.eqb_spec n "float32"); [intros E; injection E; auto|].
  destruct (String.eqb_spec n "float64"); [intros E; injection E; auto 6|discriminate].
Qed.

Theorem mix_floats a b wa wb : float_width a = Some wa -> float_width b = Some wb ->
  exists c, mix_float (Some (native a)) (Some (native b)) = Ok (Some (native c))
    /\ float_width c = Some (Z.max wa wb).
Proof.
  intros A B. apply float_cases in A, B.
  destruct A as [[-> ->]|[[-> ->]|[-> ->]]]; destruct B as [[-> ->]|[[-> ->]|[-> ->]]];
    eexists; split; reflexivity.
Qed.

Lemma mix_float_int a b w : float_width a = Some w -> In b mixable \/ b = "bit"%string ->
  mix_float (Some (native a)) (Some (native b)) = Ok (Some (native a))
  /\ mix_float (Some (native b)) (Some (native a)) = Ok (Some (native a)).
Proof.
  intros A B. apply float_cases in A. cbn [In mixable] in B.
  destruct A as [[-> _]|[[-> _]|[-> _]]];
    (destruct B as [B|B]; [|subst b; split; reflexivity]);
    repeat (destruct B as [<-|B]; [split; reflexivity|]); destruct B.
Qed.

Lemma sym_type_ref sc t m c : stands_for sc t m -> In (m, c) builtin_types ->
  forall s, (s = SyConst t \/ s = SyField t \/ s = SyParam t \/ s = SySubtype t) ->
  exists k, forall fuel, (k <= fuel)%nat -> exists rt,
    sym_type fuel sc s = Ok (rt, Some (native m)) /\ holds rt = Some c.
Proof.
  intros H I. induction H as [t B|t t' n B R H IH]; intros s S.
  - exists 1%nat. intros [|k] Hk; [lia|].
    assert (E : sym_type (Datatypes.S k) sc s = sym_type (Datatypes.S k) sc (SyConst t))
      by (repeat (destruct S as [->|S]; [reflexivity|]); subst s; reflexivity).
    rewrite E. cbn [sym_type]. rewrite B. cbn [In builtin_types] in I.
    repeat (destruct I as [I|I]; [injection I as <- <-; eexists; split; reflexivity|]). destruct I.
  - destruct (IH I (SySubtype t') ltac:(auto)) as [k Hk]. exists (Datatypes.S k).
    intros [|f] Hf; [lia|].
    assert (E : sym_type (Datatypes.S f) sc s = sym_type (Datatypes.S f) sc (SyConst t))
      by (repeat (destruct S as [->|S]; [reflexivity|]); subst s; reflexivity).
    rewrite E. cbn [sym_type]. rewrite B, R. apply Hk. lia.
Qed.

Theorem name_typed b sc n s t m c : sc_resolve sc n false = Some s ->
  s = SyConst t \/ s = SyField t \/ s = SyParam t ->
  stands_for sc t m -> In (m, c) builtin_types ->
  exists k, forall fuel, (k <= fuel)%nat -> exists r, eval b fuel sc (EId n) = Ok r
    /\ holds (e_rt r) = Some c /\ e_nt r = Some (native m) /\ e_full r = false.
Proof.
  intros R S H I. destruct (sym_type_ref sc t m c H I s ltac:(tauto)) as [k Hk].
  exists k. intros fuel Hf. destruct (Hk fuel Hf) as (rt & E & Hr).
  cbn [eval]. rewrite R, E. cbn [bind]. eexists. split; [reflexivity|]. auto.
Qed.
