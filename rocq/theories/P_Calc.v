(** The calculation of S_Calc follows the rules of S_Rust2 and S_Whole. *)
From Coq Require Import ZArith List Bool String Lia.
From Verif Require Import M_Base M_Gen M_Expr M_Print S_Expr S_Print S_Rust S_Rust2 M_Comp S_Comp S_Whole S_Calc P_Base P_Rust.
Import ListNotations.
Open Scope Z_scope.

Lemma in_typeb_spec t v : in_typeb t v = true <-> in_type t v.
Proof. unfold in_typeb, in_type. destruct (fst t); rewrite andb_true_iff, Z.leb_le, Z.ltb_lt; reflexivity. Qed.
Lemma type_eqb_spec t u : type_eqb t u = true -> t = u.
Proof.
  unfold type_eqb. destruct t as [s w], u as [s' w']. cbn [fst snd]. intros H. apply andb_true_iff in H.
  destruct H as [A B]. apply Bool.eqb_prop in A. apply Z.eqb_eq in B. subst. reflexivity.
Qed.
Lemma builtin_name_spec t m : builtin_name t = Some m -> t = native m.
Proof.
  unfold builtin_name. destruct t as [bl pk nm bits dyn]. cbn [tr_builtin tr_pkg tr_bits tr_dyn tr_name].
  destruct (bl && String.eqb pk "" && (bits =? 0) && negb dyn) eqn:C; [|discriminate]. intros H. injection H as <-.
  repeat (apply andb_true_iff in C; destruct C as [C ?]). subst bl.
  apply String.eqb_eq in H1. apply Z.eqb_eq in H0. destruct dyn; [discriminate|]. subst. reflexivity.
Qed.
Lemma int_of_spec t u : int_of t = Some u -> exists m, t = native m /\ rust_int_type m = Some u.
Proof.
  unfold int_of. destruct (builtin_name t) eqn:B; [|discriminate]. intros H. apply builtin_name_spec in B. eauto.
Qed.
Lemma mix_spec t u k : mix t u = Some k -> mixed t u k.
Proof.
  unfold mix. destruct t as [[s w]|lo hi], u as [[s' w']|lo' hi']; intros H.
  - injection H as <-. constructor.
  - destruct (in_typeb _ _ && in_typeb _ _) eqn:C; [|discriminate]. injection H as <-.
    apply andb_true_iff in C. rewrite !in_typeb_spec in C. constructor; tauto.
  - destruct (in_typeb _ _ && in_typeb _ _) eqn:C; [|discriminate]. injection H as <-.
    apply andb_true_iff in C. rewrite !in_typeb_spec in C. constructor; tauto.
  - injection H as <-. constructor.
Qed.
Lemma compare_spec t u : compare t u = true -> comparable t u.
Proof.
  unfold compare. destruct t as [t|lo hi], u as [u|lo' hi']; intros H.
  - apply type_eqb_spec in H. subst u. constructor.
  - apply andb_true_iff in H. rewrite !in_typeb_spec in H. constructor; tauto.
  - apply andb_true_iff in H. rewrite !in_typeb_spec in H. constructor; tauto.
  - rewrite !andb_true_iff, !in_typeb_spec in H. constructor; tauto.
Qed.
Lemma least_le x l : least x l <= x /\ Forall (fun v => least x l <= v) l.
Proof.
  induction l as [|a l [A B]]; cbn [least fold_right]; [split; [lia|constructor]|]. fold (least x l).
  split; [lia|]. constructor; [lia|]. eapply Forall_impl; [|exact B]. cbn. intros. lia.
Qed.
Lemma greatest_ge x l : x <= greatest x l /\ Forall (fun v => v <= greatest x l) l.
Proof.
  induction l as [|a l [A B]]; cbn [greatest fold_right]; [split; [lia|constructor]|]. fold (greatest x l).
  split; [lia|]. constructor; [lia|]. eapply Forall_impl; [|exact B]. cbn. intros. lia.
Qed.
Lemma between x l : Forall (fun v => least x l <= v <= greatest x l) l.
Proof.
  destruct (least_le x l) as [_ A]. destruct (greatest_ge x l) as [_ B].
  rewrite Forall_forall in *. intros v H. split; [exact (A v H)|exact (B v H)].
Qed.

Section Calc.
Variables (b : build) (fuel : nat) (sc : scope) (tau : expr -> option rty) (rho : valuation).
Notation computes := (computes b fuel sc tau rho).
Notation decides := (decides b fuel sc tau rho).

Lemma leaf_ev_spec e r : leaf_ev b fuel sc e = Some r -> schema_leaf e = true /\ eval b fuel sc e = Ok r.
Proof.
  unfold leaf_ev. destruct (schema_leaf e); [|discriminate]. destruct (eval b fuel sc e); try discriminate.
  intros H. injection H as <-. auto.
Qed.
Lemma int_at_spec e z : int_at rho e = Some z -> rho e = Some (VI z).
Proof. unfold int_at. destruct (rho e) as [[]|]; try discriminate. intros H. injection H as <-. reflexivity. Qed.
Lemma int_type_spec e t : int_type b fuel sc e = Some t ->
  exists m, int_leaf b fuel sc e m /\ rust_int_type m = Some t.
Proof.
  unfold int_type. destruct (leaf_ev b fuel sc e) as [r|] eqn:L; [|discriminate]. apply leaf_ev_spec in L. destruct L as [L1 L2].
  destruct (e_rt r) eqn:R; try discriminate. destruct (e_nt r) as [nt|] eqn:N; [|discriminate].
  intros H. apply int_of_spec in H. destruct H as (m & -> & H). exists m. split; [|exact H].
  split; [exact L1|]. exists r, v. auto.
Qed.
Lemma enum_type_spec e t : enum_type b fuel sc tau e = Some t ->
  exists n m, enum_leaf b fuel sc tau e n m /\ rust_int_type m = Some t.
Proof.
  unfold enum_type. destruct (leaf_ev b fuel sc e) as [r|] eqn:L; [|discriminate]. apply leaf_ev_spec in L. destruct L as [L1 L2].
  destruct (e_rt r) eqn:R; try discriminate. destruct (tau e) as [[]|] eqn:T; try discriminate.
  intros H. apply int_of_spec in H. destruct H as (m & -> & H). exists n, m. split; [|exact H].
  split; [exact L1|]. split; [exact T|]. eauto.
Qed.
Lemma mask_type_spec e n t : mask_type b fuel sc tau e = Some (n, t) ->
  exists m, mask_leaf b fuel sc tau e n m /\ rust_int_type m = Some t.
Proof.
  unfold mask_type. destruct (leaf_ev b fuel sc e) as [r|] eqn:L; [|discriminate]. apply leaf_ev_spec in L. destruct L as [L1 L2].
  destruct (e_rt r) eqn:R; try discriminate. destruct (tau e) as [[]|] eqn:T; try discriminate.
  destruct (int_of _) as [u|] eqn:U; [|discriminate]. destruct (is_bitmask r && type_eqb u (s, w)) eqn:C; [|discriminate].
  intros H. injection H as <- <-. apply andb_true_iff in C. destruct C as [C D]. apply type_eqb_spec in D. subst u.
  apply int_of_spec in U. destruct U as (m & -> & U). exists m. split; [|exact U].
  split; [exact L1|]. split; [eauto|]. eauto 6.
Qed.
Lemma name_type_spec e u : name_type b fuel sc tau e = Some u -> named_leaf b fuel sc tau e u.
Proof.
  unfold name_type. destruct (leaf_ev b fuel sc e) as [r|] eqn:L; [|discriminate]. apply leaf_ev_spec in L. destruct L as [L1 L2].
  destruct (tau e) as [[]|] eqn:T; try discriminate; intros H; injection H as <-; (split; [exact L1|split; [exact T|split; [eauto|exact I]]]).
Qed.
Lemma valueof_num e t v : valueof_type b fuel sc tau e = Some t -> rho e = Some (VI v) ->
  num_ty b fuel sc tau rho (EValueof e) (Typed t).
Proof.
  unfold valueof_type. destruct (enum_type b fuel sc tau e) as [u|] eqn:E.
  - intros H R. injection H as <-. apply enum_type_spec in E. destruct E as (n & m & A & B). eapply nt_enum; eassumption.
  - destruct (mask_type b fuel sc tau e) as [[n u]|] eqn:M; [|discriminate]. intros H R. injection H as <-.
    apply mask_type_spec in M. destruct M as (m & A & B). eapply nt_mask; eassumption.
Qed.

Ltac leaf_num_tac :=
  match goal with
  | H : match int_type ?b ?f ?s ?e with _ => _ end = Some _ |- _ =>
      let T := fresh "T" in let R := fresh "R" in
      destruct (int_type b f s e) eqn:T; [|discriminate]; destruct (int_at rho e) eqn:R; [|discriminate];
      apply int_type_spec in T; destruct T as (m & ? & ?); apply int_at_spec in R; injection H as <-;
      eapply nt_leaf; eassumption
  end.
Lemma num_type_spec e : forall t, num_type b fuel sc tau rho e = Some t -> num_ty b fuel sc tau rho e t.
Proof.
  induction e; intros k H; cbn [num_type] in H; try leaf_num_tac.
  - destruct l as [z| | |]; try (unfold int_type, leaf_ev in H; cbn [schema_leaf] in H; discriminate).
    destruct (0 <=? z) eqn:C; [|discriminate]. injection H as <-. apply nt_lit. lia.
  - apply nt_paren. auto.
  - destruct (int_at rho (ELengthof e)) eqn:R; [|discriminate]. injection H as <-. apply int_at_spec in R. eapply nt_len; eassumption.
  - destruct (valueof_type b fuel sc tau e) eqn:V; [|discriminate]. destruct (int_at rho e) eqn:R; [|discriminate].
    injection H as <-. apply int_at_spec in R. eapply valueof_num; eassumption.
  - destruct (num_type b fuel sc tau rho e) as [[]|] eqn:N; [| |discriminate].
    + injection H as <-. eapply nt_numbits. apply IHe. reflexivity.
    + destruct (_ && _) eqn:C; [|discriminate]. injection H as <-. apply andb_true_iff in C. rewrite !in_typeb_spec in C.
      eapply nt_numbits_free; [apply IHe; reflexivity|tauto|tauto].
  - destruct o; try leaf_num_tac. destruct (num_type b fuel sc tau rho e) as [[[[] w]|]|] eqn:N; try discriminate.
    injection H as <-. apply nt_neg. auto.
  - destruct (is_arith o) eqn:O; [|discriminate]. destruct (num_type b fuel sc tau rho e1) eqn:A; [|discriminate].
    destruct (num_type b fuel sc tau rho e2) eqn:B; [|discriminate]. apply mix_spec in H. eapply nt_arith; eauto.
Qed.

Lemma bool_at_spec e v : bool_at b fuel sc rho e = Some v -> bool_leaf b fuel sc e /\ rho e = Some (VB v).
Proof.
  unfold bool_at. destruct (leaf_ev b fuel sc e) as [r|] eqn:L; [|discriminate]. apply leaf_ev_spec in L. destruct L as [L1 L2].
  destruct (e_rt r) eqn:R; try discriminate. destruct (rho e) as [[]|] eqn:T; try discriminate.
  intros H. injection H as <-. split; [|reflexivity]. split; [exact L1|]. eauto.
Qed.
Lemma is_same_spec o : is_same o = true -> o = BEq \/ o = BNe.
Proof. destruct o; cbn; auto; discriminate. Qed.
Lemma same_spec e1 e2 : same_type b fuel sc tau rho e1 e2 = true ->
  exists u x y, named_leaf b fuel sc tau e1 u /\ named_leaf b fuel sc tau e2 u
    /\ rho e1 = Some (VI x) /\ rho e2 = Some (VI y) /\ int_at rho e1 = Some x /\ int_at rho e2 = Some y.
Proof.
  unfold same_type. destruct (name_type b fuel sc tau e1) as [u|] eqn:A; [|discriminate].
  destruct (name_type b fuel sc tau e2) as [u'|] eqn:B; [|discriminate].
  destruct (int_at rho e1) eqn:C; [|discriminate]. destruct (int_at rho e2) eqn:D; [|discriminate].
  intros H. apply rty_eqb_eq in H. subst u'. apply name_type_spec in A, B. exists u, z, z0.
  repeat split; auto using int_at_spec; try apply A; try apply B.
Qed.
Lemma isset_spec e1 e2 : isset_type b fuel sc tau rho e1 e2 = true ->
  exists n m s w x y, mask_leaf b fuel sc tau e1 n m /\ rust_int_type m = Some (s, w)
    /\ named_leaf b fuel sc tau e2 (RTMask n s w)
    /\ rho e1 = Some (VI x) /\ rho e2 = Some (VI y) /\ int_at rho e1 = Some x /\ int_at rho e2 = Some y.
Proof.
  unfold isset_type. destruct (mask_type b fuel sc tau e1) as [[n [s w]]|] eqn:A; [|discriminate].
  destruct (name_type b fuel sc tau e2) as [u'|] eqn:B; [|discriminate].
  destruct (int_at rho e1) eqn:C; [|discriminate]. destruct (int_at rho e2) eqn:D; [|discriminate].
  intros H. apply rty_eqb_eq in H. subst u'. apply name_type_spec in B. apply mask_type_spec in A. destruct A as (m & A & R).
  exists n, m, s, w, z, z0. split; [exact A|]. split; [exact R|]. split; [exact B|]. auto using int_at_spec.
Qed.

Ltac leaf_bool_tac :=
  match goal with
  | H : match bool_at ?b ?f ?s ?r ?e with _ => _ end = true |- _ =>
      let T := fresh "T" in destruct (bool_at b f s r e) eqn:T; [|discriminate];
      apply bool_at_spec in T; destruct T; eapply bt_leaf; eassumption
  end.
Lemma bool_type_spec e : bool_type b fuel sc tau rho e = true -> bool_ty b fuel sc tau rho e.
Proof.
  induction e; intros H; cbn [bool_type] in H; try leaf_bool_tac.
  - destruct l; try leaf_bool_tac. constructor.
  - apply bt_paren. auto.
  - apply isset_spec in H. destruct H as (n & m & s & w & x & y & A & B & C & D & E & _).
    eapply bt_isset; eassumption.
  - destruct o; try leaf_bool_tac. apply bt_not. auto.
  - apply orb_true_iff in H. destruct H as [H|H]; [apply orb_true_iff in H; destruct H as [H|H]|].
    + apply andb_true_iff in H. destruct H as [O H].
      destruct (num_type b fuel sc tau rho e1) eqn:A; [|discriminate].
      destruct (num_type b fuel sc tau rho e2) eqn:B; [|discriminate].
      eapply bt_cmp; eauto using num_type_spec, compare_spec.
    + destruct o; try discriminate; apply andb_true_iff in H; destruct H; constructor; auto.
    + apply andb_true_iff in H. destruct H as [O H]. apply same_spec in H. destruct H as (u & x & y & A & B & C & D & _).
      eapply bt_same; eauto using is_same_spec.
Qed.

Ltac leaf_calc_tac :=
  match goal with
  | H : match int_type ?b ?f ?s ?e with _ => _ end = Some _ |- _ =>
      let T := fresh "T" in let R := fresh "R" in
      destruct (int_type b f s e) eqn:T; [|discriminate]; destruct (int_at rho e) eqn:R; [|discriminate];
      apply int_type_spec in T; destruct T as (m & ? & ?); apply int_at_spec in R; injection H as <- <-;
      eapply cp_leaf; eassumption
  end.
Lemma calc_spec e : forall t z, calc b fuel sc tau rho e = Some (t, z) -> computes e t z.
Proof.
  induction e; intros k v H; cbn [calc] in H; try leaf_calc_tac.
  - destruct l as [z| | |]; try leaf_calc_tac. destruct (0 <=? z) eqn:C; [|discriminate]. injection H as <- <-. apply cp_lit. lia.
  - apply cp_paren. auto.
  - destruct (int_at rho (ELengthof e)) eqn:R; [|discriminate]. destruct (_ && _) eqn:C; [|discriminate].
    injection H as <- <-. apply int_at_spec in R. apply cp_len; [exact R|]. lia.
  - destruct (int_at rho e) eqn:R; [|discriminate]. apply int_at_spec in R.
    destruct (enum_type b fuel sc tau e) as [u|] eqn:E.
    + destruct (in_typeb u z) eqn:C; [|discriminate]. injection H as <- <-. apply in_typeb_spec in C.
      apply enum_type_spec in E. destruct E as (n & m & A & B). eapply cp_enum; eassumption.
    + destruct (mask_type b fuel sc tau e) as [[n u]|] eqn:M; [|discriminate]. injection H as <- <-.
      apply mask_type_spec in M. destruct M as (m & A & B). eapply cp_mask; eassumption.
  - destruct (calc b fuel sc tau rho e) as [[t z]|]; [|discriminate]. destruct (m_numbits z) eqn:N; [|discriminate].
    specialize (IHe _ _ eq_refl). destruct t as [t|lo hi].
    + injection H as <- <-. eapply cp_numbits; eassumption.
    + destruct (_ && _) eqn:C; [|discriminate]. injection H as <- <-. apply andb_true_iff in C. rewrite !in_typeb_spec in C.
      eapply cp_numbits_free; [eassumption|tauto|tauto|exact N].
  - destruct o; try leaf_calc_tac. destruct (calc b fuel sc tau rho e) as [[[[[] w]|] z]|]; try discriminate.
    destruct (in_typeb _ _) eqn:C; [|discriminate]. injection H as <- <-. apply in_typeb_spec in C.
    apply cp_neg; [auto|exact C].
  - destruct (is_arith o) eqn:O; [|discriminate]. destruct (calc b fuel sc tau rho e1) as [[t x]|]; [|discriminate].
    destruct (calc b fuel sc tau rho e2) as [[u y]|]; [|discriminate].
    specialize (IHe1 _ _ eq_refl). specialize (IHe2 _ _ eq_refl).
    destruct (m_int o x y) as [[z| | |]|] eqn:M; try discriminate.
    assert (K : match mix t u with
                | Some (Typed k) => if forallb (in_typeb k) (arises o x y z) then Some (Typed k, z) else None
                | _ => None
                end = Some (k, v) -> computes (EBin o e1 e2) k v).
    { intros K. destruct (mix t u) as [[w|]|] eqn:X; try discriminate. apply mix_spec in X.
      destruct (forallb _ _) eqn:F; [|discriminate]. injection K as <- <-. eapply cp_arith; try eassumption.
      rewrite forallb_forall in F. apply Forall_forall. intros a A. apply in_typeb_spec. auto. }
    destruct t as [t|lo hi], u as [u|lo' hi']; try (exact (K H)).
    injection H as <- <-. eapply cp_arith_free; try eassumption. exact (between lo (lo :: hi :: lo' :: hi' :: arises o x y z)).
Qed.

Lemma judge_spec e : forall v, judge b fuel sc tau rho e = Some v -> decides e v.
Proof.
  induction e; intros k H; cbn [judge] in H;
    try (apply bool_at_spec in H; destruct H; apply dc_leaf; assumption).
  - destruct l; try (apply bool_at_spec in H; destruct H; apply dc_leaf; assumption).
    injection H as <-. constructor.
  - apply dc_paren. auto.
  - destruct (isset_type b fuel sc tau rho e1 e2) eqn:S; [|discriminate]. apply isset_spec in S.
    destruct S as (n & m & s & w & x & y & A & B & C & D & E & F & G). rewrite F, G in H. injection H as <-.
    eapply dc_isset; eassumption.
  - destruct o; try (apply bool_at_spec in H; destruct H; apply dc_leaf; assumption).
    destruct (judge b fuel sc tau rho e) eqn:J; [|discriminate]. injection H as <-. apply dc_not. auto.
  - assert (K : (if is_same o && same_type b fuel sc tau rho e1 e2 then
        match int_at rho e1, int_at rho e2 with Some x, Some y => match m_int o x y with Some (VB v) => Some v | _ => None end | _, _ => None end
      else if is_cmp o then
        match calc b fuel sc tau rho e1, calc b fuel sc tau rho e2 with
        | Some (t, x), Some (u, y) => if compare t u then match m_int o x y with Some (VB v) => Some v | _ => None end else None
        | _, _ => None
        end
      else None) = Some k -> decides (EBin o e1 e2) k).
    { clear H. intros H. destruct (is_same o && _) eqn:S.
      - apply andb_true_iff in S. destruct S as [O S]. apply same_spec in S. destruct S as (u & x & y & A & B & C & D & E & F).
        rewrite E, F in H. destruct (m_int o x y) as [[]|] eqn:M; try discriminate. injection H as <-.
        eapply dc_same; eauto using is_same_spec.
      - clear S. destruct (is_cmp o) eqn:O; [|discriminate].
        destruct (calc b fuel sc tau rho e1) as [[t x]|] eqn:A; [|discriminate].
        destruct (calc b fuel sc tau rho e2) as [[u y]|] eqn:B; [|discriminate].
        destruct (compare t u) eqn:C; [|discriminate].
        destruct (m_int o x y) as [[]|] eqn:M; try discriminate. injection H as <-.
        eapply dc_cmp; eauto using calc_spec, compare_spec. }
    destruct o; try (exact (K H)).
    + destruct (judge b fuel sc tau rho e1) as [[]|] eqn:J; [| |discriminate].
      * apply dc_and; auto.
      * destruct (bool_type b fuel sc tau rho e2) eqn:T; [|discriminate]. injection H as <-.
        apply dc_and_short; auto using bool_type_spec.
    + destruct (judge b fuel sc tau rho e1) as [[]|] eqn:J; [| |discriminate].
      * destruct (bool_type b fuel sc tau rho e2) eqn:T; [|discriminate]. injection H as <-.
        apply dc_or_short; auto using bool_type_spec.
      * apply dc_or; auto.
Qed.
End Calc.

Section Interp.
Variables (cb : build) (fuel : nat) (P : package).

Lemma number_at_spec n ps fs e T z : number_at cb fuel P n ps fs e T = Some z ->
  exists t, number_is cb fuel P n ps fs e t z /\ literals t T.
Proof.
  unfold number_at, calc_at. destruct (calc _ _ _ _ _ _) as [[t x]|] eqn:C; [|discriminate].
  destruct (literalsb t T) eqn:L; [|discriminate]. intros H. injection H as <-. exists t. split; [apply calc_spec; exact C|].
  destruct t; cbn in *; [exact I|]. apply andb_true_iff in L. rewrite !in_typeb_spec in L. exact L.
Qed.

Theorem calc_lawful : lawful cb fuel P (calc_interp cb fuel P).
Proof.
  constructor.
  - intros n a idx ps fs v H. cbn [in_cond calc_interp] in H.
    destruct (judge_at cb fuel P n ps fs (a_src a)) eqn:J; cbn [first defined] in H.
    + apply ok_inj in H. subst b. left. apply judge_spec. exact J.
    + right. destruct (number_at cb fuel P n ps fs (a_src a) (true, 32)) eqn:N; [|discriminate H]. cbn in H.
      apply ok_inj in H. subst v. apply number_at_spec in N. destruct N as (t & A & B). eauto.
  - intros n a idx ps fs z H. cbn [in_len calc_interp] in H.
    destruct (number_at cb fuel P n ps fs (a_src a) (true, 32)) eqn:N; [|discriminate H].
    destruct (0 <=? z0) eqn:C; [|discriminate H]. apply ok_inj in H. subst z0.
    apply number_at_spec in N. destruct N as (t & A & B). exists t. split; [exact A|split; [exact B|lia]].
  - intros n arr a idx ps fs z H. cbn [in_width calc_interp] in H.
    destruct (number_at cb fuel P n ps fs (a_src a) (false, 8)) eqn:N; [|discriminate H].
    destruct (in_typeb (false, 8) z0) eqn:C; [|discriminate H]. apply ok_inj in H. subst z0. apply in_typeb_spec in C.
    apply number_at_spec in N. destruct N as (t & A & B). exists t. split; [exact A|split; [exact B|exact C]].
  - intros n arr pt a idx ps fs v H. cbn [in_arg calc_interp] in H.
    destruct a as [a|e], (type_kind P pt) as [u | k | | ]; try discriminate H.
    + destruct (scalar_arg cb fuel P n ps fs u (a_src a)) eqn:Q; cbn [first defined] in H.
      * apply ok_inj in H. subst v0. left. unfold scalar_arg in Q. destruct u as [s w| | |nm|nm s w].
        -- destruct (number_at _ _ _ _ _ _ _ _) eqn:N; [|discriminate Q]. destruct (in_typeb (s, w) z) eqn:C; [|discriminate Q].
           injection Q as <-. apply number_at_spec in N. destruct N as (t & A & B). apply in_typeb_spec in C. eauto 7.
        -- discriminate Q.
        -- destruct (judge_at cb fuel P n ps fs (a_src a)) eqn:J; [|discriminate Q]. injection Q as <-.
           eexists. split; [apply judge_spec; exact J|reflexivity].
        -- destruct (named_type P n (a_src a)) as [u'|] eqn:N; [|discriminate Q].
           destruct (value_of P n ps fs (a_src a)) as [[]|] eqn:V; try discriminate Q.
           destruct (rty_eqb _ _) eqn:R; [|discriminate Q]. injection Q as <-. apply rty_eqb_eq in R. subst u'. eauto.
        -- destruct (named_type P n (a_src a)) as [u'|] eqn:N; [|discriminate Q].
           destruct (value_of P n ps fs (a_src a)) as [[]|] eqn:V; try discriminate Q.
           destruct (rty_eqb _ _) eqn:R; [|discriminate Q]. injection Q as <-. apply rty_eqb_eq in R. subst u'. eauto.
      * right. destruct (element_arg P n (element_index arr idx) ps fs u (a_src a)) eqn:E; [|discriminate H].
        cbn in H. apply ok_inj in H. subst v0. unfold element_arg in E. destruct (a_src a); try discriminate E.
        destruct e2; try discriminate E. destruct (direct P n e1) eqn:D; [|discriminate E].
        destruct (source _ _ _ _ _ _) as [[[] v0]|] eqn:S; try discriminate E.
        destruct (scalar u v0) as [[u'' w]|] eqn:C; [|discriminate E].
        destruct (rty_eqb t u && rty_eqb u'' u) eqn:R; [|discriminate E]. injection E as <-.
        apply andb_true_iff in R. rewrite !rty_eqb_eq in R. destruct R as [-> ->]. eauto 8.
    + destruct (source _ _ _ _ _ _) as [[[|k0| |] v0]|]; try discriminate H.
      destruct (Nat.eqb k k0) eqn:K; [|discriminate H]. apply ok_inj in H. subst v0. apply Nat.eqb_eq in K. subst k0. reflexivity.
  - intros n e idx ps fs z H. cbn [in_sel calc_interp] in H.
    destruct (S_Comp.path _ _ _ _ _) as [[[] v]|]; try discriminate H.
    destruct (scalar t v) as [[u w]|] eqn:C; [|discriminate H]. destruct (rty_eqb u t) eqn:R; [|discriminate H].
    apply rty_eqb_eq in R. subst u. destruct (number_of w) eqn:N; [|discriminate H]. cbn in H. apply ok_inj in H. subst z0.
    eauto 7.
  - intros n e. destruct e; try exact I; cbn [in_label calc_interp].
    + destruct l; try exact I; reflexivity.
    + intros t w z A N. rewrite A, N. reflexivity.
    + destruct o; try exact I. destruct e; try exact I. destruct l; try exact I. reflexivity.
    + intros t w z A N. rewrite A, N. reflexivity.
Qed.
End Interp.

(** ** The rules determine the values *)

Section Unique.
Variables (b : build) (fuel : nat) (sc : scope) (tau : expr -> option rty) (rho : valuation).
Notation computes := (computes b fuel sc tau rho).
Notation decides := (decides b fuel sc tau rho).

Lemma int_bool_leaf e m : int_leaf b fuel sc e m -> bool_leaf b fuel sc e -> False.
Proof.
  intros (_ & r & v & A & B & _) (_ & r' & v' & A' & B'). rewrite A in A'. apply ok_inj in A'. subst r'. congruence.
Qed.
Ltac not_leaf :=
  repeat match goal with
  | H : int_leaf _ _ _ _ _ |- _ => destruct H as [H _]; cbn in H; discriminate H
  | H : bool_leaf _ _ _ _ |- _ => destruct H as [H _]; cbn in H; discriminate H
  end.
Ltac inv H := inversion H; subst; clear H; try solve [not_leaf].

Lemma computes_unique e t z : computes e t z -> forall t' z', computes e t' z' -> z = z'.
Proof.
  induction 1; intros k v' Hc.
  - inv Hc. reflexivity.
  - destruct H as [Sl H]. inversion Hc; subst; try discriminate Sl. congruence.
  - inv Hc. eauto.
  - inv Hc. f_equal. eauto.
  - inv Hc; repeat match goal with I : forall t z, computes ?e t z -> _, J : computes ?e _ _ |- _ => apply I in J; subst end; congruence.
  - inv Hc; repeat match goal with I : forall t z, computes ?e t z -> _, J : computes ?e _ _ |- _ => apply I in J; subst end; congruence.
  - inv Hc. congruence.
  - inv Hc; repeat match goal with I : forall t z, computes ?e t z -> _, J : computes ?e _ _ |- _ => apply I in J; subst end; congruence.
  - inv Hc; repeat match goal with I : forall t z, computes ?e t z -> _, J : computes ?e _ _ |- _ => apply I in J; subst end; congruence.
  - inv Hc; congruence.
  - inv Hc; congruence.
Qed.

Lemma named_computes e u t z : named_leaf b fuel sc tau e u -> rho e = Some (VI z) ->
  forall x, computes e t x -> x = z.
Proof.
  intros (Sl & _) R x Hc. inversion Hc; subst; try discriminate Sl. congruence.
Qed.

Ltac contra_tac :=
  try match goal with H : _ \/ _ |- _ => destruct H; discriminate end;
  match goal with I : forall v, decides ?e v -> _ = v, J : decides ?e _ |- _ => specialize (I _ J); discriminate I end.
Lemma decides_unique e v : decides e v -> forall v', decides e v' -> v = v'.
Proof.
  induction 1; intros v2 Hd.
  - inv Hd. reflexivity.
  - destruct H as [Sl H]. inversion Hd; subst; try discriminate Sl. congruence.
  - inv Hd. auto.
  - inv Hd. f_equal. auto.
  - inv Hd; try discriminate.
    + repeat match goal with A : computes ?e _ _, B : computes ?e _ _ |- _ =>
        pose proof (computes_unique _ _ _ A _ _ B); clear B; subst end. congruence.
    + repeat match goal with A : computes ?e _ _, B : named_leaf _ _ _ _ ?e _, C : rho ?e = Some (VI _) |- _ =>
        pose proof (named_computes _ _ _ _ B C _ A); clear A; subst end. congruence.
  - inv Hd; try discriminate; auto; contra_tac.
  - inv Hd; try discriminate; auto; contra_tac.
  - inv Hd; try discriminate; auto; contra_tac.
  - inv Hd; try discriminate; auto; contra_tac.
  - inv Hd; try discriminate; try (destruct H; discriminate).
    + repeat match goal with A : computes ?e _ _, B : named_leaf _ _ _ _ ?e _, C : rho ?e = Some (VI _) |- _ =>
        pose proof (named_computes _ _ _ _ B C _ A); clear A; subst end. congruence.
    + congruence.
  - inv Hd. congruence.
Qed.

Lemma computes_decides e t z : computes e t z -> forall v, decides e v -> False.
Proof.
  induction 1; intros v2 Hd.
  - inv Hd.
  - assert (Sl := proj1 H). inversion Hd; subst; try discriminate Sl. eapply int_bool_leaf; eassumption.
  - inv Hd. eauto.
  - inv Hd.
  - inv Hd; try discriminate; try (destruct o; discriminate); try (match goal with H : _ \/ _ |- _ => destruct H; subst; discriminate end).
  - inv Hd; try discriminate; try (destruct o; discriminate); try (match goal with H : _ \/ _ |- _ => destruct H; subst; discriminate end).
  - inv Hd.
  - inv Hd.
  - inv Hd.
  - inv Hd.
  - inv Hd.
Qed.
End Unique.

(** Interpretations that follow the rules agree. *)
Lemma lawful_agree cb fuel P I J : lawful cb fuel P I -> lawful cb fuel P J -> agree I J.
Proof.
  intros A B. unfold agree. split; [|split; [|split; [|split]]].
  - intros n a idx ps fs v w X Y. apply (law_cond _ _ _ _ A) in X. apply (law_cond _ _ _ _ B) in Y.
    destruct X as [X|(t & z & X & _ & ->)], Y as [Y|(t' & z' & Y & _ & ->)].
    + eapply decides_unique; eassumption.
    + exfalso. eapply computes_decides; eassumption.
    + exfalso. eapply computes_decides; eassumption.
    + rewrite (computes_unique _ _ _ _ _ _ _ _ X _ _ Y). reflexivity.
  - intros n a idx ps fs v w X Y. apply (law_len _ _ _ _ A) in X. apply (law_len _ _ _ _ B) in Y.
    destruct X as (t & X & _), Y as (t' & Y & _). eapply computes_unique; eassumption.
  - intros n arr a idx ps fs v w X Y. apply (law_width _ _ _ _ A) in X. apply (law_width _ _ _ _ B) in Y.
    destruct X as (t & X & _), Y as (t' & Y & _). eapply computes_unique; eassumption.
  - intros n arr pt a idx ps fs v w X Y. apply (law_arg _ _ _ _ A) in X. apply (law_arg _ _ _ _ B) in Y.
    destruct a as [a|e], (type_kind P pt) as [u|k| |]; try contradiction.
    + assert (N : forall c, a_src a = EElem c EIndex ->
        match u with
        | RTInt s w => exists t z, number_is cb fuel P n ps fs (a_src a) t z /\ literals t (s, w) /\ in_type (s, w) z /\ v = VInt z
        | RTBool => exists c, truth_is cb fuel P n ps fs (a_src a) c /\ v = VBool c
        | RTEnum _ | RTMask _ _ _ =>
            exists z, named_type P n (a_src a) = Some u /\ value_of P n ps fs (a_src a) = Some (VI z) /\ v = VInt z
        | RTSize => False
        end -> False).
      { intros c E. rewrite E. destruct u.
        - intros (t & z & H & _). inversion H; subst; discriminate.
        - auto.
        - intros (v' & H & _). inversion H; subst; discriminate.
        - intros (z & _ & H & _). discriminate H.
        - intros (z & _ & H & _). discriminate H. }
      assert (N' : forall c, a_src a = EElem c EIndex ->
        match u with
        | RTInt s w' => exists t z, number_is cb fuel P n ps fs (a_src a) t z /\ literals t (s, w') /\ in_type (s, w') z /\ w = VInt z
        | RTBool => exists c, truth_is cb fuel P n ps fs (a_src a) c /\ w = VBool c
        | RTEnum _ | RTMask _ _ _ =>
            exists z, named_type P n (a_src a) = Some u /\ value_of P n ps fs (a_src a) = Some (VI z) /\ w = VInt z
        | RTSize => False
        end -> False).
      { intros c E. rewrite E. destruct u.
        - intros (t & z & H & _). inversion H; subst; discriminate.
        - auto.
        - intros (v' & H & _). inversion H; subst; discriminate.
        - intros (z & _ & H & _). discriminate H.
        - intros (z & _ & H & _). discriminate H. }
      destruct X as [X|(c & x & E & _ & S & _)], Y as [Y|(c' & x' & E' & _ & S' & _)].
      * destruct u.
        -- destruct X as (t & z & X & _ & _ & ->), Y as (t' & z' & Y & _ & _ & ->). f_equal. eapply computes_unique; eassumption.
        -- destruct X.
        -- destruct X as (z & X & ->), Y as (z' & Y & ->). f_equal. eapply decides_unique; eassumption.
        -- destruct X as (z & _ & X & ->), Y as (z' & _ & Y & ->). congruence.
        -- destruct X as (z & _ & X & ->), Y as (z' & _ & Y & ->). congruence.
      * exfalso. exact (N _ E' X).
      * exfalso. exact (N' _ E Y).
      * congruence.
    + congruence.
  - intros n e idx ps fs v w X Y. apply (law_sel _ _ _ _ A) in X. apply (law_sel _ _ _ _ B) in Y.
    destruct X as (t & x & x' & P1 & S1 & N1), Y as (t' & y & y' & P2 & S2 & N2). congruence.
Qed.
