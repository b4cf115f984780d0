(** Printed bodies, run statement by statement, against the functions of M_Gen: the
    generated code of a package. *)
From Coq Require Import ZArith List Bool String Lia.
From Verif Require Import M_Base M_Bits M_Var M_Prim M_Array S_Var M_Gen M_Expr M_Print S_Expr S_Print S_Rust S_Gen S_Wire M_Comp S_Comp M_Code S_Code.
From Verif Require Import P_Base P_Same P_Code1 P_Code2 P_Code3 P_Code4 P_Code5.
From Verif Require P_Comp3 P_Comp4 P_Lower.
From Verif Require Import S_Base S_Array S_Pkg S_Whole S_Link.
From Verif Require P_Whole3 P_Whole4.
Import ListNotations.
Open Scope string_scope.
Open Scope list_scope.
Open Scope Z_scope.

(** ** Types that call each other *)
Section Knot.
Variables (E : env) (I : interp) (defs : list sdef).
Hypothesis (PA : all_printable defs) (CA : forall n, calm I n).
Hypothesis (SY : forall n d, nth_error defs n = Some d -> steady I n d).
Hypothesis (FO : forall n d i f, nth_error defs n = Some d -> nth_error (sdef_fields d) i = Some f ->
  S_Gen.field_ok i (lower_field I defs n f)).

Lemma item_default_ok im t e : (forall k e, oi_default (im k) <> Err e) -> item_default im t <> Err e.
Proof using. intros H. destruct t as [b|k args]; [destruct b; discriminate|apply H]. Qed.
Lemma member_defaults_ok im n : (forall k e, oi_default (im k) <> Err e) -> forall l e, member_defaults im I defs n l <> Err e.
Proof using.
  intros H. induction l as [|f t IH]; intros e X; [discriminate X|]. cbn [member_defaults] in X.
  destruct (type_default im I defs n (member_rust f)) as [v|e'| |] eqn:T; cbn [bind] in X; try discriminate X.
  - destruct (member_defaults im I defs n t) as [r|e'| |]; cbn [bind] in X; try discriminate X. now apply (IH e').
  - destruct (member_rust f); cbn [type_default] in T; try discriminate T. now apply (item_default_ok _ _ _ H) in T.
Qed.
Lemma member_defaults_length im n : forall l r, member_defaults im I defs n l = Ok r -> List.length r = List.length l.
Proof using.
  induction l as [|f t IH]; intros r X; cbn [member_defaults] in X.
  - apply ok_inj in X as <-. reflexivity.
  - apply bind_ok in X as (v & _ & X). apply bind_ok in X as (q & Q & X). apply ok_inj in X as <-. cbn. now rewrite (IH q Q).
Qed.
Lemma defaults_at g : defaults_fit (code_at E I defs g) defs.
Proof using.
  induction g as [|g [_ IH]]; split; cbn [code_at]; try discriminate.
  - intros k e v K PN X. rewrite K in X. cbn [code_impl oi_default] in X.
    assert ((do ps <- member_defaults (code_at E I defs g) I defs k (sdef_params e) ;
            do fs <- member_defaults (code_at E I defs g) I defs k (sdef_fields e) ; Ok (VObj 0 ps fs)) = Ok v) as Y.
    { destruct e; cbn [sdef_params] in PN; try contradiction (PN eq_refl); exact X. }
    apply bind_ok in Y as (ps & P1 & Y). apply bind_ok in Y as (fs & F1 & Y). apply ok_inj in Y as <-.
    exists ps, fs. repeat split; eapply member_defaults_length; eassumption.
  - intros k e X. destruct (nth_error defs k) as [d|]; [|discriminate X]. cbn [code_impl oi_default] in X.
    assert (forall e, (do ps <- member_defaults (code_at E I defs g) I defs k (sdef_params d) ;
            do fs <- member_defaults (code_at E I defs g) I defs k (sdef_fields d) ; Ok (VObj 0 ps fs)) <> Err e) as Y.
    { intros e' Y. destruct (member_defaults _ _ _ _ (sdef_params d)) as [?|e1| |] eqn:X1; cbn [bind] in Y; try discriminate Y.
      - destruct (member_defaults _ _ _ _ (sdef_fields d)) as [?|e1| |] eqn:X2; cbn [bind] in Y; try discriminate Y.
        now apply (member_defaults_ok _ _ IH) in X2.
      - now apply (member_defaults_ok _ _ IH) in X1. }
    destruct d as [| | |nm b l|nm b l]; try (apply (Y e); exact X); destruct l; discriminate X.
Qed.

Lemma bl_refl o : bl_impl o o.
Proof using. constructor; intros; apply ble_refl. Qed.
Lemma bl_trans o p q : bl_impl o p -> bl_impl p q -> bl_impl o q.
Proof using.
  intros [A1 A2 A3 A4 A5 A6] [B1 B2 B3 B4 B5 B6].
  constructor; intros; eapply ble_trans; eauto.
Qed.

Lemma lower_nth l : forall n k, nth_error (lower_defs I defs n l) k = option_map (lower_def I defs (n + k)) (nth_error l k).
Proof using.
  induction l as [|d t IH]; intros n k; [now destruct k|]. destruct k as [|k]; cbn [lower_defs nth_error option_map].
  - now rewrite Nat.add_0_r.
  - rewrite IH. now rewrite Nat.add_succ_r.
Qed.
Lemma knot g : forall n, bl_impl (impl_at E (lower I defs) g n) (code_at E I defs g n).
Proof using PA CA SY FO.
  induction g as [|g IH]; intros n; [apply bl_refl|]. cbn [impl_at code_at].
  unfold lower. rewrite lower_nth. destruct (nth_error defs n) as [d|] eqn:D; cbn [option_map]; [|apply bl_refl].
  eapply bl_trans; [apply (def_impl_bl E _ _ IH)|]. apply code_same.
  - apply PA. eapply nth_error_In, D.
  - exact PA.
  - apply CA.
  - now apply SY.
  - apply defaults_at.
  - intros i f. now apply FO.
Qed.
End Knot.

(** ** The expressions of checked packages *)
Section Checked.
Variables (cb : build) (fuel : nat) (b : build) (P : package).
Notation defs := (pk_defs P).
Notation IC := (code_interp cb fuel b P).

(** [param_index] is not there. *)
Fixpoint quiet (g : rexp) : bool :=
  match g with
  | RAtom s => negb (String.eqb s "param_index")
  | RLit _ => true
  | RField a _ | RParen a | RUn _ a | RCast a _ => quiet a
  | RCall f args => quiet f && forallb quiet args
  | RElem a c | RBin _ a c => quiet a && quiet c
  | RIf c a e => quiet c && quiet a && quiet e
  end.
Lemma quiet_cast c t : quiet (cast_tree c t) = quiet t.
Proof using. destruct c; reflexivity. Qed.
Lemma free_index m : free_name m = true -> negb (String.eqb m "param_index") = true.
Proof using. unfold free_name. intros H. now apply andb_true_iff in H as [_ H]. Qed.
Lemma tree_quiet n e : resolved cb fuel P n e = true -> mentions_index e = false -> quiet (tree cb fuel (pk_scope P n) e) = true.
Proof using.
  induction e; cbn [resolved mentions_index]; intros R M;
    repeat match goal with H : andb _ _ = true |- _ => apply andb_true_iff in H as [? ?]
                         | H : orb _ _ = false |- _ => apply orb_false_iff in H as [? ?] end; try discriminate;
    cbn [tree]; try reflexivity; try solve [cbn [quiet forallb]; rewrite ?IHe, ?IHe1, ?IHe2, ?IHe3 by assumption; reflexivity].
  - (* member *)
    destruct (eval cb fuel (pk_scope P n) e) as [x| | |]; cbn [quiet]; try (apply free_index; assumption).
    destruct (e_rt x); cbn [quiet]; try (apply free_index; assumption). apply IHe; assumption.
  - (* valueof *)
    cbn [quiet]. destruct (match eval cb fuel (pk_scope P n) e with Ok x => is_bitmask x | _ => false end); cbn [quiet forallb]; rewrite ?IHe by assumption; reflexivity.
  - (* binary *)
    destruct (is_arith o).
    + destruct (eval cb fuel (pk_scope P n) (EBin o e1 e2)) as [r| | |], (eval cb fuel (pk_scope P n) e1), (eval cb fuel (pk_scope P n) e2);
        try solve [cbn [quiet]; rewrite IHe1, IHe2 by assumption; reflexivity].
      destruct (e_rt r); cbn [quiet forallb]; rewrite ?quiet_cast, IHe1, IHe2 by assumption; reflexivity.
    + cbn [quiet]; rewrite IHe1, IHe2 by assumption; reflexivity.
  - (* name *)
    match goal with |- context[sc_resolve ?a ?m false] => destruct (sc_resolve a m false) as [[]|] end; cbn [quiet]; try reflexivity; apply free_index; assumption.
Qed.

Lemma element_quiet n ix ps fs g : quiet g = true ->
  place_or_element defs n ix ps fs g = place_or_element defs n None ps fs g.
Proof using.
  destruct g; try reflexivity. cbn [quiet place_or_element]. intros Q. apply andb_true_iff in Q as [_ Q].
  destruct g2; try reflexivity. cbn [quiet] in Q. apply negb_true_iff in Q. now rewrite Q.
Qed.
Lemma env_quiet n ix ps fs g : quiet g = true -> env_at P n ix ps fs g = env_at P n None ps fs g.
Proof using.
  intros Q. unfold env_at, code_env. destruct g; try (rewrite (element_quiet n ix ps fs _ Q); reflexivity).
  cbn [quiet] in Q. apply negb_true_iff in Q. now rewrite Q.
Qed.
Lemma code_quiet n ix ps fs x : quiet (erase x) = true ->
  S_Rust.run b (env_at P n ix ps fs) x = S_Rust.run b (env_at P n None ps fs) x
  /\ ty (env_at P n ix ps fs) x = ty (env_at P n None ps fs) x.
Proof using.
  induction x; cbn [erase]; intros B.
  - auto.
  - cbn [S_Rust.run ty]. rewrite (env_quiet n ix ps fs e B). auto.
  - cbn [S_Rust.run ty]. auto.
  - destruct (IHx B) as [H1 H2]. cbn [S_Rust.run ty]. rewrite H1, H2. auto.
  - destruct (IHx B) as [H1 H2]. cbn [S_Rust.run ty]. rewrite H1, H2. auto.
  - cbn [quiet] in B. apply andb_true_iff in B as [B1 B2].
    destruct (IHx1 B1) as [H1 H2]. destruct (IHx2 B2) as [H3 H4]. cbn [S_Rust.run ty]. rewrite H1, H2, H3, H4. auto.
  - cbn [quiet forallb] in B. apply andb_true_iff in B as [_ B]. apply andb_true_iff in B as [B _].
    destruct (IHx B) as [H1 H2]. cbn [S_Rust.run ty]. rewrite H1, H2. auto.
  - cbn [quiet] in B. apply andb_true_iff in B as [B B3]. apply andb_true_iff in B as [B1 B2].
    destruct (IHx1 B1) as [H1 H2]. destruct (IHx2 B2) as [H3 H4]. destruct (IHx3 B3) as [H5 H6].
    cbn [S_Rust.run ty]. rewrite H1, H2, H3, H4, H5, H6. auto.
Qed.

Lemma nodes_size e : nodes e = P_Comp4.esize e.
Proof using. induction e; cbn [nodes P_Comp4.esize]; congruence. Qed.
Lemma uses_index_is a : uses_index a = mentions_index (arg_expr a).
Proof using.
  unfold uses_index. rewrite P_Comp4.index_loop_spec; [cbn; now rewrite orb_false_r|].
  rewrite nodes_size. cbn. lia.
Qed.

Lemma steady_arg_ok n i t a : arg_ok cb fuel P n i t a -> steady_arg IC n a.
Proof using.
  intros AO U pt idx ps fs. rewrite uses_index_is in U. cbn [in_arg code_interp]. destruct a as [a|e]; cbn [arg_expr] in U.
  - destruct AO as (EO & G & _). pose proof (P_Comp3.gen_tree _ _ _ _ _ _ _ EO G) as T.
    destruct EO as (_ & _ & _ & _ & R & _). pose proof (tree_quiet _ _ R U) as Q. rewrite <- T in Q.
    assert (quiet (erase (arg_code cb fuel P n pt a)) = true) as Q'.
    { unfold arg_code. destruct (arg_cast _ _ _ _ _); exact Q. }
    rewrite (proj1 (code_quiet n (index_at true idx) ps fs _ Q')). apply ble_refl.
  - destruct AO as (EO & _). destruct EO as (_ & _ & _ & _ & R & _). pose proof (tree_quiet _ _ R U) as Q.
    rewrite (element_quiet n (index_at true idx) ps fs _ Q). apply ble_refl.
Qed.
Lemma steady_args_ok n i k args : forall j, args_ok cb fuel P n i k j args -> Forall (steady_arg IC n) args.
Proof using.
  induction args as [|a t IH]; intros j A; constructor; [eapply steady_arg_ok; apply A|]. eapply IH. apply A.
Qed.

(** The evaluation of expressions panics or succeeds. *)
Definition safe {A} (x : res A) : Prop := forall e, x <> Err e.
Lemma safe_ok {A} (a : A) : safe (Ok a). Proof using. discriminate. Qed.
Lemma safe_panic {A} : safe (Panic : res A). Proof using. discriminate. Qed.
Lemma safe_nofuel {A} : safe (NoFuel : res A). Proof using. discriminate. Qed.
Lemma safe_bind {A B} (x : res A) (k : A -> res B) : safe x -> (forall a, safe (k a)) -> safe (bind x k).
Proof using. intros H K. destruct x as [a|e| |]; cbn [bind]; [apply K|destruct (H e eq_refl)|apply safe_panic|apply safe_nofuel]. Qed.
Lemma safe_rmap {A B} (f : A -> B) x : safe x -> safe (rmap f x).
Proof using. intros H. destruct x as [a|e| |]; cbn; [discriminate|destruct (H e eq_refl)|discriminate|discriminate]. Qed.
Lemma numbits_safe sg w z : safe (numbits b sg w z).
Proof using.
  unfold numbits. destruct (z =? 0); [apply safe_ok|]. destruct (z =? 1); [apply safe_ok|]. apply safe_bind.
  - destruct sg; unfold arith_s, arith_u; [destruct (in_s _ _)|destruct (in_u _ _)]; try apply safe_ok; destruct b; try apply safe_ok; apply safe_panic.
  - intros v. unfold bit_length. destruct (negb (in_u 64 v)); [apply safe_panic|].
    destruct (2 ^ 32 <=? v); (match goal with |- context[2 ^ 16 <=? ?x] => destruct (2 ^ 16 <=? x) end);
      (match goal with |- context[2 ^ 8 <=? ?x] => destruct (2 ^ 8 <=? x) end); cbv zeta beta iota;
      (match goal with |- context[nth_error ?l ?x] => destruct (nth_error l x) end); try apply safe_ok; apply safe_panic.
Qed.
Lemma arith_safe i z : safe (arith_t b i z).
Proof using. unfold arith_t. destruct (S_Rust.fits i z); [apply safe_ok|]. destruct b; [apply safe_panic|apply safe_ok]. Qed.
Lemma count_safe w z : safe (count_t b w z).
Proof using. unfold count_t. destruct ((0 <=? z) && (z <? w)); [apply safe_ok|]. destruct b; [apply safe_panic|apply safe_ok]. Qed.
Lemma bin_safe o i x y : safe (int_bin b o i x y).
Proof using.
  destruct o; cbn [int_bin]; try apply safe_ok; try apply safe_panic; try (apply safe_rmap, arith_safe);
    try (apply safe_bind; [apply count_safe|intros; apply safe_ok]);
    intros e X; repeat match type of X with context[if ?c then _ else _] => destruct c end; discriminate X.
Qed.
Lemma run_safe L x : safe (S_Rust.run b L x).
Proof using.
  induction x; cbn [S_Rust.run].
  - destruct l; try apply safe_ok; apply safe_panic.
  - destruct (L e) as [[t v]|]; [apply safe_ok|apply safe_panic].
  - exact IHx.
  - apply safe_bind; [exact IHx|]. intros v. destruct (ty L x) as [t|]; [|apply safe_panic].
    destruct o; try apply safe_panic; destruct v; try apply safe_panic; try apply safe_ok; destruct (int_of t); try apply safe_panic; try apply safe_ok.
    apply safe_rmap, arith_safe.
  - apply safe_bind; [exact IHx|]. intros v. destruct (rty_of_name _) as [t|]; [|apply safe_panic].
    destruct v; try apply safe_panic; destruct (int_of t); try apply safe_panic; apply safe_ok.
  - apply safe_bind; [exact IHx1|]. intros v. destruct (op_of o) as [o'|]; [|apply safe_panic].
    assert (safe (do w <- S_Rust.run b L x2 ;
          match v, w with
          | VI x, VI y =>
              match ty L x1 with
              | Some t =>
                  match bits_of_ty t with
                  | Some i => int_bin b o' i x y
                  | None =>
                      match o' with
                      | BEq => Ok (VB (x =? y))
                      | BNe => Ok (VB (negb (x =? y)))
                      | _ => Panic
                      end
                  end
              | None => Panic
              end
          | VB x, VB y =>
              match o' with
              | BEq => Ok (VB (Bool.eqb x y))
              | BNe => Ok (VB (negb (Bool.eqb x y)))
              | _ => Panic
              end
          | _, _ => Panic
          end)) as K.
    { apply safe_bind; [exact IHx2|]. intros w. destruct v; try apply safe_panic; destruct w; try apply safe_panic.
      - destruct (ty L x1) as [t|]; [|apply safe_panic]. destruct (bits_of_ty t); [apply bin_safe|].
        destruct o'; try apply safe_panic; apply safe_ok.
      - destruct o'; try apply safe_panic; apply safe_ok. }
    destruct o'; try exact K; destruct v as [|[]| |]; try exact K; try exact IHx2; apply safe_ok.
  - apply safe_bind; [exact IHx|]. intros v. destruct v; try apply safe_panic. destruct (ty L x) as [t|]; [|apply safe_panic].
    destruct (int_of t) as [[sg w]|]; [|apply safe_panic]. apply safe_rmap, numbits_safe.
  - apply safe_bind; [exact IHx1|]. intros v. destruct v as [|[]| |]; try apply safe_panic; assumption.
Qed.
Lemma code_calm n : calm IC n.
Proof using.
  intros arr pt a idx ps fs e. cbn [in_arg code_interp]. destruct a as [a|e0].
  - pose proof (run_safe (env_at P n (index_at arr idx) ps fs) (arg_code cb fuel P n pt a)) as K.
    destruct (S_Rust.run b _ _) as [v|e'| |]; cbn [as_value]; try discriminate.
    + destruct v; discriminate.
    + destruct (K e' eq_refl).
  - destruct (place_or_element _ _ _ _ _ _) as [[? ?]|]; discriminate.
Qed.

Lemma checked_same : checked cb fuel P -> all_printable defs -> forall E g n, e_build E = b ->
  bl_impl (impl_at E (generated cb fuel b P) g n) (code_at E IC defs g n).
Proof using.
  intros (_ & rank & CK) PA E g n _. unfold generated. apply knot; [exact PA|apply code_calm| |].
  - intros k d D f FI. apply In_nth_error in FI as (i & F).
    destruct (CK k d D) as (_ & FL & _). destruct (FL i f F) as (_ & _ & T & _).
    destruct (sf_ty f) as [bt|sg a|j args]; cbn [type_args]; try constructor. eapply steady_args_ok, T.
  - intros k d i f D F. destruct (CK k d D) as (_ & FL & _). eapply P_Comp4.field_lower, FL, F.
Qed.
End Checked.

(** ** The results *)
Lemma ble_gives {A} (x y : res A) : ble x y -> gives x y.
Proof. intros H. split; [apply (fun a => ble_ok _ _ _ a H)|apply (fun a => ble_err _ _ _ a H)]. Qed.
Theorem code_gives : forall cb fuel P, checked cb fuel P -> all_printable (pk_defs P) -> forall E g n,
  same_code (impl_at E (generated cb fuel (e_build E) P) g n) (code_at E (code_interp cb fuel (e_build E) P) (pk_defs P) g n).
Proof.
  intros cb fuel P C PA E g n. destruct (checked_same cb fuel (e_build E) P C PA E g n eq_refl) as [A1 A2 A3 A4 A5 A6].
  repeat split; intros; eapply ble_gives; eauto.
Qed.
Lemma gives_bytes o o' v bs : same_code o o' -> to_bytes o v = Ok bs -> to_bytes o' v = Ok bs.
Proof.
  intros (_ & W & _) H. unfold to_bytes in *. apply bind_ok in H as ([c w] & X & H). rewrite (proj1 (W _ _ _ _) _ X). exact H.
Qed.
Lemma gives_value o o' v bs : same_code o o' -> from_bytes o bs = Ok v -> from_bytes o' bs = Ok v.
Proof.
  intros (D & _ & R & _) H. unfold from_bytes in *. apply bind_ok in H as (d & X & H). rewrite (proj1 D _ X). cbn [bind].
  apply bind_ok in H as (q & Y & H). rewrite (proj1 (R _ _ _ _) _ Y). exact H.
Qed.

Theorem text_written : forall o src home cb fuel P I,
  (forall p, some_order (o p)) -> is_schema src home P -> scoped src home P o fuel -> fine cb fuel P ->
  all_printable (pk_defs P) -> lawful cb fuel P I ->
  forall E n v ts, wire (schema_of I (pk_defs P)) (is_debug (e_build E)) false n v ts ->
  exists k, forall g, (k <= g)%nat ->
    to_bytes (code_at E (code_interp cb fuel (e_build E) P) (pk_defs P) g n) v = Ok (close_bits (bits_at 0 ts)).
Proof.
  intros o src home cb fuel P I O IS SC F PA LW E n v ts W.
  destruct (P_Whole4.schema_written o src home cb fuel P I O IS SC F LW E n v ts W) as (k & K).
  exists k. intros g G. eapply gives_bytes; [|exact (K g G)]. apply code_gives; [eapply P_Whole3.fine_checked; eauto|exact PA].
Qed.
Theorem text_read : forall o src home cb fuel P I,
  (forall p, some_order (o p)) -> is_schema src home P -> scoped src home P o fuel -> fine cb fuel P ->
  all_printable (pk_defs P) -> lawful cb fuel P I ->
  forall E n v ts, top_value E (schema_of I (pk_defs P)) n v ->
  wire (schema_of I (pk_defs P)) (is_debug (e_build E)) false n v ts ->
  exists k, forall g, (k <= g)%nat -> forall tail,
    from_bytes (code_at E (code_interp cb fuel (e_build E) P) (pk_defs P) g n) (close_bits (bits_at 0 ts) ++ tail) = Ok v.
Proof.
  intros o src home cb fuel P I O IS SC F PA LW E n v ts T W.
  destruct (P_Whole4.schema_read o src home cb fuel P I O IS SC F LW E n v ts T W) as (k & K).
  exists k. intros g G tail. eapply gives_value; [|exact (K g G tail)]. apply code_gives; [eapply P_Whole3.fine_checked; eauto|exact PA].
Qed.

Theorem bodies_parse : forall defs d, (forall f, match d with SChoice _ _ _ _ dflt => dflt <> Some (Some f) | _ => True end) ->
  (forall packed, parse_body (write_body defs d packed) <> None) /\ (forall packed, parse_body (read_body defs d packed) <> None)
  /\ (forall packed, parse_body (size_body d packed) <> None) /\ parse_body (create_body d) <> None /\ parse_body (init_body d) <> None.
Proof.
  intros defs d H. assert (no_default_field d) as N by (destruct d as [|nm ps sel cases [[f|]|]| | |]; try exact Logic.I; destruct (H f eq_refl)).
  repeat split; intros; rewrite ?write_parses, ?read_parses, ?size_parses, ?create_parses, ?init_parses by exact N; discriminate.
Qed.
