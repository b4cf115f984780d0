(** Proofs: what is asked of the expressions of a schema gives the checked packages of
    C62, and the rules give its intended meaning. *)
From Coq Require Import ZArith List Bool String Lia.
From Verif Require Import M_Base M_Gen M_Expr M_Scope M_Templ M_Pkg S_Pkg M_Link M_Print S_Expr S_Print S_Rust S_Rust2 S_Link M_Types M_Comp S_Comp M_Infer S_Whole.
From Verif Require S_Scope.
From Verif Require Import P_Base P_Print P_Rust P_Rust3 P_Rust4 P_Arg P_Comp1 P_Comp2 P_Comp3 P_Comp4 P_Whole1 P_Whole2.
Import ListNotations.
Open Scope Z_scope.

(** ** Texts of arguments *)
Section Texts.
Variables (b : build) (fuel : nat) (sc : scope).
Notation evl := (eval b fuel sc).
Notation tr := (tree b fuel sc).

Lemma form_clone e : arg_form e = true -> ends_valueof e = false -> forall r ts,
  evl e = Ok r -> (forall s, e_rt r <> TString s) -> gen b fuel sc e = Ok ts -> grouped e -> plain e ->
  (3 < lev e)%nat /\ (is_binary e = false -> (10 < lev e)%nat)
  /\ exists g, Q (lev e) false (ts ++ clone_toks) g /\ clones (tr e) g.
Proof.
  assert (AT : forall e r ts, atomic e = true -> evl e = Ok r -> gen b fuel sc e = Ok ts -> grouped e -> plain e ->
    (3 < lev e)%nat /\ (is_binary e = false -> (10 < lev e)%nat)
    /\ exists g, Q (lev e) false (ts ++ clone_toks) g /\ clones (tr e) g).
  { intros a r ts A E G Gr Pl. destruct (atomic_lev _ A) as [LV EV]. pose proof (gen_reads _ _ _ _ _ _ E G Gr Pl) as H.
    rewrite LV, EV in H. rewrite LV. split; [lia|]. split; [lia|]. eexists. split; [apply Q_clone, H|apply cl_here]. }
  induction e; intros AF EV r ts He NS Hts Hg Hp; try discriminate AF; try (eapply AT; eauto; fail).
  - cbn [arg_form atomic orb] in AF. cbn [ends_valueof] in EV.
    cbn [gen tree lev grouped plain] in *. cbn [eval] in He. apply bind_ok in He as (x & Hx & He).
    apply bind_ok in Hts as (u & Hu & G). apply ok_inj in G as <-.
    destruct Hg as [Hz Hg]. destruct Hp as (Ho & Hi & Hv & Hp).
    assert (NX : forall s, e_rt x <> TString s).
    { intros s N. unfold eval_un in He. rewrite N in He. destruct o; discriminate He. }
    destruct (IHe AF EV _ _ Hx NX Hu Hg Hp) as (_ & _ & g & R & C).
    split; [lia|]. split; [lia|]. eexists. split; [|apply cl_un, C].
    cbn [app]. eapply Q_prefix; [destruct Ho as [-> | ->]; reflexivity|exact R|].
    destruct e; cbn [lev zlev is_isset is_valueof] in *; try lia; try discriminate.
    destruct o0; cbn in Hz; lia.
  - cbn [arg_form atomic orb] in AF. apply andb_true_iff in AF as [A AF].
    destruct (P_Print.operands _ _ _ _ _ _ _ He Hg Hp) as (l & Hl & H1 & H13 & H2 & Hgen).
    assert (Hlev : lev (EBin o e1 e2) = l) by (cbn [lev]; now rewrite Hl). rewrite Hlev.
    split; [destruct o; try discriminate A; injection Hl as <-; lia|]. split; [discriminate|].
    assert (He' := He). cbn [eval] in He'.
    apply bind_ok in He' as (x & Hx & He'). apply bind_ok in He' as (y & Hy & He').
    rewrite A in He'. cbn [ends_valueof] in EV.
    assert (NY : forall s, e_rt y <> TString s).
    { intros s N. unfold eval_arith in He'. rewrite N in He'.
      destruct (e_rt x); try discriminate He'.
      destruct o; try discriminate He'; apply ok_inj in He'; subst r; eapply NS; reflexivity. }
    cbn [grouped plain] in Hg, Hp.
    destruct Hg as (_ & _ & Hg1 & Hg2). destruct Hp as (_ & _ & _ & Hp1 & Hp2).
    cbn [gen] in Hts. rewrite Hx, Hy, He in Hts.
    apply bind_ok in Hts as (t0 & Ht & Hts). apply bind_ok in Hts as (u & Hu & Hts).
    rewrite A in Hts. cbn [bind] in Hts.
    assert (Hts' : (do c <- cast_of r x ; do d <- cast_of r y ; Ok (with_cast c t0 ++ [KOp (bin_tok o)] ++ with_cast d u)) = Ok ts).
    { destruct (e_rt r) eqn:N; try exact Hts. exfalso. eapply NS. reflexivity. }
    apply bind_ok in Hts' as (c & Hc & Hts'). apply bind_ok in Hts' as (d & Hd & Hts'). apply ok_inj in Hts' as <-.
    pose proof (gen_reads _ _ _ _ _ _ Hx Ht Hg1 Hp1) as Q1.
    pose proof (gen_reads _ _ _ _ _ _ Hy Hu Hg2 Hp2) as Q2.
    assert (TR : tr (EBin o e1 e2) = RBin (bin_tok o) (cast_tree c (tr e1)) (cast_tree d (tr e2))).
    { cbn [tree]. rewrite Hx, Hy, He, A, Hc, Hd. cbn [ok_or].
      destruct (e_rt r) eqn:N; try reflexivity. exfalso. eapply NS. reflexivity. }
    rewrite TR.
    assert (R2 : exists g2, Q (lev e2) false (with_cast d u ++ clone_toks) g2 /\ clones (cast_tree d (tr e2)) g2).
    { destruct d as [n|].
      - cbn [with_cast cast_tree]. eexists. split; [|apply cl_here].
        apply (Q_weaken 12 (lev e2) false false); [|apply lev_le|pose proof (lev_le e2); lia|discriminate].
        apply Q_clone.
        replace ([KLP; KLP] ++ u ++ [KRP; KAs n; KRP])
          with ([KLP] ++ (([KLP] ++ u ++ [KRP]) ++ [KAs n]) ++ [KRP])
          by (cbn; rewrite <- ?app_assoc; reflexivity).
        eapply Q_paren, (Q_as 12); [|lia]. eapply Q_paren, Q2.
      - destruct (IHe2 AF EV _ _ Hy NY Hu Hg2 Hp2) as (_ & _ & X). exact X. }
    destruct R2 as (g2 & R2 & C2). eexists. split; [|apply cl_bin, C2].
    rewrite <- !app_assoc.
    eapply Q_bin; [exact Hl|apply Q_cast; [exact Q1|apply lev_le]|exact R2|exact H1|exact H13|exact H2|exact Hgen].
Qed.

Lemma arg_texts target e r ts : evl e = Ok r -> gen b fuel sc e = Ok ts -> grouped e -> plain e ->
  arg_form e = true -> ends_valueof e = false -> (forall s, e_rt r <> TString s) ->
  (arg_cast b fuel sc target e = None \/ is_binary e = false) ->
  let g := match arg_cast b fuel sc target e with Some t => RCast (tr e) t | None => tr e end in
  (forall p, reads (arg_check_text b fuel sc p target e) (RBin REq (RField (RAtom "element") p) g))
  /\ exists g', reads (arg_read_text b fuel sc target e) g' /\ clones g g'.
Proof.
  intros E G Gr Pl AF EV NS NB. pose proof (gen_reads _ _ _ _ _ _ E G Gr Pl) as QG. rewrite EV in QG.
  destruct (form_clone _ AF EV _ _ E NS G Gr Pl) as (LV & L11 & gc & QC & CC).
  assert (RD : forall l ea us g, Q l ea us g -> rust_reads us g).
  { intros l ea us g H. destruct (Q_end _ _ _ _ H) as [n K]. exists n. apply K. lia. }
  assert (CHK : forall l ea us g p, Q l ea us g -> (3 < l)%nat ->
    rust_reads ([KAtom "element"; KDot; KAtom p; KOp REq] ++ us) (RBin REq (RField (RAtom "element") p) g)).
  { intros l ea us g p H Hl. apply (RD 3%nat ea).
    change ([KAtom "element"; KDot; KAtom p; KOp REq] ++ us) with (([KAtom "element"] ++ [KDot; KAtom p]) ++ [KOp REq] ++ us).
    eapply Q_bin; [reflexivity|apply Q_field, Q_atom|exact H|lia|lia|exact Hl|discriminate]. }
  unfold reads, arg_check_text, arg_read_text, arg_write_text. rewrite G, E. cbn [bind].
  destruct (arg_cast b fuel sc target e) as [n|]; cbn [as_text bind].
  - destruct NB as [NB|NB]; [discriminate NB|]. specialize (L11 NB).
    pose proof (Q_as _ _ _ n QG L11) as QA. split.
    + intros p. eexists. split; [reflexivity|]. eapply CHK; [exact QA|lia].
    + destruct (e_full r); cbn [app].
      * eexists. split; [eexists; split; [reflexivity|exact (RD _ _ _ _ QA)]|apply cl_none].
      * eexists. split; [|apply cl_cast, CC]. eexists. split; [reflexivity|].
        pose proof (Q_as _ _ _ n QC L11) as QA'. rewrite <- app_assoc in QA'. exact (RD _ _ _ _ QA').
  - rewrite !app_nil_r. split.
    + intros p. eexists. split; [reflexivity|]. eapply CHK; [exact QG|exact LV].
    + destruct (e_full r).
      * eexists. rewrite app_nil_r. split; [eexists; split; [reflexivity|exact (RD _ _ _ _ QG)]|apply cl_none].
      * eexists. split; [eexists; split; [reflexivity|exact (RD _ _ _ _ QC)]|exact CC].
Qed.
End Texts.

Section Schema.
Context (o : string -> hash_order body) (src : sources) (home : nat -> string) (P : package) (cb : build) (fuel : nat).
Hypothesis O : forall p, some_order (o p).
Hypothesis IS : is_schema src home P.
Hypothesis SC : scoped src home P o fuel.
Notation defs := (pk_defs P).
Notation consts := (pk_consts P).
Notation evl n := (eval cb fuel (pk_scope P n)).
Notation tr n := (tree cb fuel (pk_scope P n)).

(** ** Names *)
Lemma direct_resolved n d e : nth_error defs n = Some d -> direct P n e = true -> forall r, evl n e = Ok r ->
  resolved cb fuel P n e = true.
Proof using O IS SC.
  intros D. induction e; intros DR r E; try discriminate DR.
  - pose proof DR as DR'. cbn [direct] in DR. apply andb_true_iff in DR as [FN DR].
    cbn [resolved]. rewrite FN. cbn [andb]. pose proof E as E0. cbn [eval] in E. apply bind_ok in E as (x & Ex & _).
    destruct (path_kind P n e) as [[t|j|k|]|] eqn:K.
    2: { apply andb_true_iff in DR as [DR _]. rewrite (IHe DR _ Ex).
         destruct (dot_tree o src home P cb fuel O IS SC n d e name j r D DR K E0) as [_ ->]. reflexivity. }
    all: destruct e; try discriminate DR; apply andb_true_iff in DR as [FT NM]; cbn [resolved]; rewrite FT, NM; reflexivity.
  - cbn [direct] in DR. cbn [resolved]. rewrite DR. cbn [andb].
    destruct (is_member P n name) eqn:M; [|reflexivity]. cbn [negb orb].
    destruct (path_kind P n (EId name)) as [k|] eqn:K.
    + rewrite (tree_member o src home P cb fuel O IS SC n name k K). reflexivity.
    + rewrite (no_path P n name K) in M. discriminate M.
Qed.
Lemma call_resolved n d e : nth_error defs n = Some d -> clean P n (ECall e) = true -> forall r, evl n (ECall e) = Ok r ->
  resolved cb fuel P n (ECall e) = true.
Proof using O IS SC.
  intros D C r E. cbn [eval] in E. apply bind_ok in E as (x & Ex & _).
  destruct e as [| | | |oe f| | | | | | | | |f]; try discriminate C; cbn [clean] in C; cbn [resolved].
  - apply andb_true_iff in C as [C C2]. apply andb_true_iff in C as [FN DR].
    destruct (path_kind P n oe) as [[|j| |]|] eqn:K; try discriminate C2.
    destruct (dot_tree o src home P cb fuel O IS SC n d oe f j x D DR K Ex) as ((y & Ey) & T).
    rewrite FN, (direct_resolved n d oe D DR _ Ey), T. reflexivity.
  - apply andb_true_iff in C as [FN C]. rewrite FN. cbn [tree].
    destruct (sc_resolve (pk_scope P n) f false) as [[]|]; try discriminate C. cbn. now rewrite orb_true_r.
Qed.
Lemma clean_resolved n d e : nth_error defs n = Some d -> clean P n e = true -> forall r, evl n e = Ok r ->
  resolved cb fuel P n e = true.
Proof using O IS SC.
  intros D. induction e; intros C r E; try discriminate C; try (cbn [clean resolved] in *; auto; fail);
    try (cbn [eval] in E; apply bind_ok in E as (x & Ex & E); cbn [clean resolved] in *; eauto; fail).
  - eapply call_resolved; eauto.
  - cbn [clean resolved] in *. apply andb_true_iff in C as [C1 C2]. cbn [eval] in E.
    apply bind_ok in E as (x & Ex & E). apply bind_ok in E as (y & Ey & E). now rewrite (IHe1 C1 _ Ex), (IHe2 C2 _ Ey).
  - cbn [clean] in C. eapply direct_resolved; eauto.
  - cbn [clean resolved] in *. apply andb_true_iff in C as [C1 C2]. cbn [eval] in E.
    apply bind_ok in E as (x & Ex & E). apply bind_ok in E as (y & Ey & E). now rewrite (IHe1 C1 _ Ex), (IHe2 C2 _ Ey).
  - cbn [clean resolved] in *. apply andb_true_iff in C as [C1 C2]. cbn [eval] in E.
    apply bind_ok in E as (x & Ex & E). apply bind_ok in E as (y & Ey & E). now rewrite (IHe1 C1 _ Ex), (IHe2 C2 _ Ey).
  - cbn [clean resolved] in *. apply andb_true_iff in C as [C C3]. apply andb_true_iff in C as [C1 C2]. cbn [eval] in E.
    apply bind_ok in E as (z & Ez & E). apply bind_ok in E as (x & Ex & E). apply bind_ok in E as (y & Ey & E).
    now rewrite (IHe1 C1 _ Ez), (IHe2 C2 _ Ex), (IHe3 C3 _ Ey).
  - cbn [clean] in C. eapply direct_resolved; eauto.
Qed.

Lemma before_field d i g m : before d i g = true -> before d i (RField g m) = true.
Proof using.
  intros H. destruct g; try exact H. cbn [before] in *. apply negb_true_iff in H. now rewrite H.
Qed.
Lemma before_cast d i c g : before d i g = true -> before d i (cast_tree c g) = true.
Proof using. intros H. destruct c; exact H. Qed.
Lemma free_before d i m : free_name m = true -> before d i (RAtom m) = true.
Proof using. unfold free_name. intros H. apply andb_true_iff in H as [H _]. exact H. Qed.
Lemma clean_before n d i e : clean P n e = true -> names_before d i e = true -> before d i (tr n e) = true.
Proof using.
  induction e; intros C B; try discriminate C; try reflexivity;
    try (cbn [clean names_before tree before forallb] in *; auto; fail).
  - cbn [names_before] in B. cbn [tree before forallb]. rewrite andb_true_r.
    destruct e as [| | | |oe f| | | | | | | | |f]; try discriminate C; cbn [clean] in C.
    + apply andb_true_iff in C as [C C2]. apply andb_true_iff in C as [FN DR]. apply IHe; [|exact B].
      cbn [clean direct]. rewrite FN. destruct (path_kind P n oe) as [[]|]; try discriminate C2. now rewrite DR, C2.
    + apply andb_true_iff in C as [FN _]. apply IHe; [exact FN|exact B].
  - cbn [clean names_before tree before] in *. apply andb_true_iff in C as [C1 C2]. apply andb_true_iff in B as [B1 B2].
    now rewrite IHe1, IHe2.
  - cbn [clean direct names_before] in *. apply andb_true_iff in C as [FN C].
    assert (CE : clean P n e = true).
    { destruct (path_kind P n e) as [[]|]; try (destruct e; try discriminate C; apply andb_true_iff in C as [C _]; exact C). }
    destruct (tree_dot cb fuel P n e name) as [-> | ->].
    + apply before_field. auto.
    + now apply free_before.
  - cbn [clean names_before tree before] in *. apply andb_true_iff in C as [C1 C2]. apply andb_true_iff in B as [B1 B2].
    now rewrite IHe1, IHe2.
  - cbn [clean names_before tree before forallb] in *. rewrite andb_true_r. apply before_field. auto.
  - cbn [clean names_before tree] in *. cbn [before]. destruct (match evl n e with Ok _ => _ | _ => _ end).
    + cbn [before forallb]. rewrite andb_true_r. apply before_field. auto.
    + auto.
  - cbn [clean names_before tree before forallb] in *. rewrite andb_true_r. auto.
  - cbn [clean names_before] in *. apply andb_true_iff in C as [C1 C2]. apply andb_true_iff in B as [B1 B2].
    specialize (IHe1 C1 B1). specialize (IHe2 C2 B2). cbn [tree].
    assert (S1 : before d i (RBin (bin_tok o0) (tr n e1) (tr n e2)) = true) by (cbn [before]; now rewrite IHe1, IHe2).
    destruct (is_arith o0); [|exact S1].
    destruct (evl n (EBin o0 e1 e2)) as [r| | |]; try exact S1. destruct (evl n e1) as [x| | |]; try exact S1.
    destruct (evl n e2) as [y| | |]; try exact S1.
    destruct (e_rt r); cbn [before forallb]; rewrite ?before_cast by assumption; rewrite ?IHe1, ?IHe2; reflexivity.
  - cbn [clean names_before tree before] in *. apply andb_true_iff in C as [C C3]. apply andb_true_iff in C as [C1 C2].
    apply andb_true_iff in B as [B B3]. apply andb_true_iff in B as [B1 B2]. now rewrite IHe1, IHe2, IHe3.
  - cbn [clean names_before] in *. destruct (tree_id cb fuel P n name) as [-> | ->].
    + cbn [before]. change (String.eqb "self" "self") with true. cbn iota. exact B.
    + now apply free_before.
Qed.

Lemma methods_cast c g : self_methods (cast_tree c g) = self_methods g.
Proof using. destruct c; reflexivity. Qed.
Lemma direct_methods n e : direct P n e = true -> self_methods (tr n e) = [].
Proof using.
  induction e; intros C; try discriminate C; cbn [direct] in C.
  - destruct (tree_dot cb fuel P n e name) as [-> | ->]; [|reflexivity]. cbn [self_methods].
    apply andb_true_iff in C as [FN C].
    destruct (path_kind P n e) as [[]|]; try (apply andb_true_iff in C as [C _]; auto; fail);
      (destruct e; try discriminate C; destruct (tree_id cb fuel P n name0) as [-> | ->]; reflexivity).
  - destruct (tree_id cb fuel P n name) as [-> | ->]; reflexivity.
Qed.
Lemma method_self m g : (forall s, g <> RAtom s \/ String.eqb s "self" = false) ->
  forall f, In f (self_methods (RCall (RField g m) [])) -> In f (self_methods g).
Proof using.
  intros H f I. destruct g; cbn [self_methods flat_map app] in I; rewrite ?app_nil_r in I; try exact I.
  destruct (H s) as [K|K]; [congruence|]. rewrite K in I. exact I.
Qed.
Lemma clean_not_self n d e : nth_error defs n = Some d -> clean P n e = true -> forall r, evl n e = Ok r ->
  forall s, tr n e <> RAtom s \/ String.eqb s "self" = false.
Proof using O IS SC.
  intros D C r E s. destruct (String.eqb s "self") eqn:Q; [left|auto]. apply String.eqb_eq in Q. subst s.
  intros T. exact (tree_atom cb fuel P n e _ T (clean_resolved n d e D C r E) eq_refl).
Qed.
Lemma clean_methods n d e : nth_error defs n = Some d -> clean P n e = true -> forall r, evl n e = Ok r ->
  forall f, In f (self_methods (tr n e)) -> In f (self_calls e).
Proof using O IS SC.
  intros D. induction e; intros C r E f I; try discriminate C; try (destruct I; fail);
    try (cbn [eval] in E; apply bind_ok in E as (x & Ex & E); cbn [clean tree self_methods self_calls] in *; eauto; fail).
  - pose proof E as E0. cbn [eval] in E. apply bind_ok in E as (x & Ex & E). cbn [tree] in I.
    destruct e as [| | | |oe m| | | | | | | | |m]; try discriminate C; cbn [clean] in C.
    + exfalso. apply andb_true_iff in C as [C C2]. apply andb_true_iff in C as [FN DR].
      destruct (path_kind P n oe) as [[|j| |]|] eqn:K; try discriminate C2.
      destruct (dot_tree o src home P cb fuel O IS SC n d oe m j x D DR K Ex) as ((y & Ey) & T). rewrite T in I.
      assert (CO : clean P n oe = true) by (destruct oe; try discriminate DR; exact DR).
      apply method_self in I; [|exact (clean_not_self n d oe D CO _ Ey)]. rewrite (direct_methods _ _ DR) in I. destruct I.
    + destruct (tree_id cb fuel P n m) as [T|T]; rewrite T in I; cbn in I; [exact I|destruct I].
  - cbn [eval] in E. apply bind_ok in E as (x & Ex & E). apply bind_ok in E as (y & Ey & E).
    cbn [clean tree self_methods self_calls] in *. apply andb_true_iff in C as [C1 C2].
    apply in_app_or in I. apply in_or_app. destruct I as [I|I]; eauto.
  - cbn [clean] in C. rewrite (direct_methods _ _ C) in I. destruct I.
  - cbn [eval] in E. apply bind_ok in E as (x & Ex & E). apply bind_ok in E as (y & Ey & E).
    cbn [clean tree self_methods self_calls] in *. apply andb_true_iff in C as [C1 C2]. rewrite app_nil_r in I.
    apply in_app_or in I. apply in_or_app. destruct I as [I|I]; eauto.
  - cbn [eval] in E. apply bind_ok in E as (x & Ex & E). cbn [clean self_calls] in *. cbn [tree] in I.
    change (In f (self_methods (RCall (RField (tr n e) "len") []))) in I.
    apply method_self in I; [|exact (clean_not_self n d e D C _ Ex)]. eauto.
  - cbn [eval] in E. apply bind_ok in E as (x & Ex & E). cbn [clean self_calls] in *. cbn [tree] in I. rewrite Ex in I.
    destruct (is_bitmask x).
    + change (In f (self_methods (RCall (RField (tr n e) "bits") []))) in I.
      apply method_self in I; [|exact (clean_not_self n d e D C _ Ex)]. eauto.
    + cbn [self_methods] in I. eauto.
  - cbn [eval] in E. apply bind_ok in E as (x & Ex & E). cbn [clean tree self_calls self_methods flat_map app] in *.
    rewrite app_nil_r in I. eauto.
  - pose proof E as E0. cbn [eval] in E. apply bind_ok in E as (x & Ex & E). apply bind_ok in E as (y & Ey & E).
    cbn [clean self_calls] in *. apply andb_true_iff in C as [C1 C2].
    assert (J : In f (self_methods (tr n e1) ++ self_methods (tr n e2))).
    { cbn [tree] in I. rewrite E0, Ex, Ey in I. destruct (is_arith o0); [|exact I].
      destruct (e_rt r); cbn [self_methods flat_map app] in I; rewrite ?methods_cast, ?app_nil_r in I; exact I. }
    apply in_app_or in J. apply in_or_app. destruct J as [J|J]; eauto.
  - cbn [eval] in E. apply bind_ok in E as (z & Ez & E). apply bind_ok in E as (x & Ex & E). apply bind_ok in E as (y & Ey & E).
    cbn [clean tree self_methods self_calls] in *. apply andb_true_iff in C as [C C3]. apply andb_true_iff in C as [C1 C2].
    apply in_app_or in I. apply in_or_app. destruct I as [I|I]; [eauto|]. right.
    apply in_app_or in I. apply in_or_app. destruct I as [I|I]; eauto.
  - cbn [clean] in C. rewrite (direct_methods _ _ C) in I. destruct I.
Qed.
Lemma fine_ok n i e : expr_fine cb fuel P (call_before P) n i e -> expr_ok cb fuel P n i e.
Proof using O IS SC.
  intros ((r & E) & G & Gr & Pl & C & d & D & B & MY). split; [eauto|]. split; [exact G|]. split; [exact Gr|]. split; [exact Pl|].
  split; [eapply clean_resolved; eauto|]. exists d. split; [exact D|]. split; [now apply clean_before|].
  intros f I. apply MY. eapply clean_methods; eauto.
Qed.

(** ** Texts *)
Lemma typed_tree n e T : erase (typed_as cb fuel P n e T) = tr n e.
Proof using. apply erase_infer. Qed.
Lemma cond_checked n i a : cond_fine cb fuel P (call_before P) n i a -> cond_ok cb fuel P n i a.
Proof using O IS SC.
  intros (EF & NT & (ts & G) & R). split; [now apply fine_ok|]. split; [exact NT|].
  destruct EF as ((r & E) & _ & Gr & Pl & _). exists ts. split; [exact G|].
  pose proof (gen_bool_reads _ _ _ _ _ _ E G Gr Pl NT) as RR.
  replace (erase (a_rust a)) with (condition_tree cb fuel (pk_scope P n) (a_src a)); [exact RR|].
  rewrite R. unfold cond_typed, condition_tree. rewrite E.
  destruct (e_rt r); cbn [erase]; rewrite typed_tree; reflexivity.
Qed.
Lemma len_checked n i a : len_fine cb fuel P (call_before P) n i a -> len_ok cb fuel P n i a.
Proof using O IS SC.
  intros (EF & R). split; [now apply fine_ok|]. destruct EF as ((r & E) & (ts & G) & Gr & Pl & _).
  unfold len_text, reads. rewrite G. cbn [bind]. eexists. split; [reflexivity|]. cbn [len_code erase]. rewrite R, typed_tree.
  eapply function_reads; eauto.
Qed.
Lemma width_checked n i arr a : width_fine cb fuel P (call_before P) n i arr a -> width_ok cb fuel P n i arr a.
Proof using O IS SC.
  intros (EF & R). split; [now apply fine_ok|]. destruct EF as ((r & E) & (ts & G) & Gr & Pl & _).
  unfold width_text, width_code, reads. rewrite G. cbn [bind]. eexists. split; [reflexivity|]. rewrite R.
  destruct (width_cast cb fuel (pk_scope P n) arr (a_src a)); cbn [erase]; unfold width_typed; rewrite typed_tree.
  - eapply function_reads; eauto.
  - eapply gen_rust_reads; eauto.
Qed.
Lemma direct_atomic n e : direct P n e = true -> arg_form e = true /\ ends_valueof e = false /\ is_binary e = false.
Proof using. destruct e; try discriminate; auto. Qed.
Lemma arg_checked n i pt a : arg_fine cb fuel P (call_before P) n i pt a -> arg_ok cb fuel P n i pt a.
Proof using O IS SC.
  destruct a as [a|e]; cbn [arg_fine arg_ok].
  - intros (EF & R & AF & EV & NS & NB). split; [now apply fine_ok|].
    destruct EF as ((r & E) & (ts & G) & Gr & Pl & _).
    assert (T : erase (a_rust a) = tr n (a_src a)) by (rewrite R; apply typed_tree).
    split; [rewrite T; exists ts; split; [exact G|eapply gen_rust_reads; eauto]|].
    unfold arg_reads. replace (erase (arg_code cb fuel P n pt a)) with
      (match arg_cast cb fuel (pk_scope P n) (target_name P pt) (a_src a) with
       | Some t => RCast (tr n (a_src a)) t | None => tr n (a_src a) end).
    + eapply arg_texts; eauto.
    + unfold arg_code. destruct (arg_cast _ _ _ _ _); cbn [erase]; now rewrite T.
  - intros (EF & k & TK & K). split; [now apply fine_ok|].
    destruct EF as ((r & E) & (ts & G) & Gr & Pl & _ & d & D & _).
    assert (X : (arg_form e = true /\ ends_valueof e = false) /\ (forall s, e_rt r <> TString s)
                /\ forall t, arg_cast cb fuel (pk_scope P n) t e = None).
    { unfold arg_cast. rewrite E. destruct K as [[DR PK]|(c & -> & DR & PK)].
      - destruct (direct_atomic _ _ DR) as (A & B & _). split; [auto|].
        destruct (path_noted o src home P cb fuel O IS SC n d e _ r D DR PK I E) as [_ ->]. split; [discriminate|auto].
      - split; [split; reflexivity|]. cbn [eval] in E. apply bind_ok in E as (x & Ex & E). apply bind_ok in E as (y & Ey & E).
        destruct (e_rt x); try discriminate E; apply ok_inj in E; subst r; (split; [discriminate|auto]). }
    destruct X as ((AF & EV) & NS & AC).
    pose proof (arg_texts cb fuel (pk_scope P n) (target_name P pt) e r ts E G Gr Pl AF EV NS (or_introl (AC _))) as X.
    rewrite AC in X. exact X.
Qed.
Lemma args_checked n i k args : forall j, args_fine cb fuel P (call_before P) n i k j args -> args_ok cb fuel P n i k j args.
Proof using O IS SC.
  induction args as [|a t IH]; intros j A; cbn [args_fine args_ok] in *; [exact I|].
  destruct A as [A B]. split; [now apply arg_checked|now apply IH].
Qed.

(** ** Declarations *)
Lemma builtin_no_length nm k b : builtin nm k = Some b -> no_length b.
Proof using.
  intros B. unfold builtin in B. cbn [assoc] in B.
  repeat match type of B with
  | context[String.eqb nm ?x] => destruct (String.eqb nm x); [injection B as <-; exact I|]
  end. discriminate B.
Qed.
Lemma Forall2_r {A B} (R : A -> B -> Prop) l l' : Forall2 R l l' -> forall b, In b l' -> exists a, R a b.
Proof using. induction 1; intros c H1; [destruct H1|]. destruct H1 as [<-|H1]; eauto. Qed.
Lemma member_typed n d f : nth_error defs n = Some d -> In f (sdef_params d ++ sdef_fields d) ->
  exists t, type_is src home P (home n) t (sf_ty f).
Proof using IS.
  intros D F. destruct (is_decl _ _ _ IS n d D) as (kd & x & _ & DI). unfold decl_is in DI.
  destruct d; destruct kd; try contradiction; destruct x as [| |[] ps' fs' gs'| |]; try contradiction;
    cbn [sdef_params sdef_fields app] in F; try destruct F;
    destruct DI as [F1 F2]; apply in_app_or in F as [F|F];
    first [apply (Forall2_r _ _ _ F1) in F|apply (Forall2_r _ _ _ F2) in F]; destruct F as (m & _ & T); eauto.
Qed.
Lemma field_checked rank n d i f : nth_error defs n = Some d -> nth_error (sdef_fields d) i = Some f ->
  field_fine cb fuel P (call_before P) rank n i f -> S_Comp.field_ok cb fuel P rank n i f.
Proof using O IS SC.
  intros D F (H1 & H2 & H3 & H4 & H5). split; [|split; [|split; [|split; [exact H4|exact H5]]]].
  - destruct (sf_clause f); cbn [opt_ok] in *; [now apply cond_checked|exact I].
  - destruct (sf_array f) as [[p [l|]]|]; cbn in *; try exact I. now apply len_checked.
  - destruct (member_typed n d f D) as (t & T); [apply in_or_app; right; eapply nth_error_In; eauto|].
    destruct (sf_ty f); cbn [type_is] in T.
    + destruct T as (u & _ & B). eapply builtin_no_length; eauto.
    + now apply width_checked.
    + now apply args_checked.
Qed.
Lemma label_checked n d e : nth_error defs n = Some d -> has_fields d = true -> label_fine cb fuel P n e ->
  label_ok cb fuel P n e.
Proof using O IS SC.
  intros D HF (LF & (r & E) & (ts & G)).
  assert (K : grouped e -> plain e -> reads (gen cb fuel (pk_scope P n) e) (tr n e)).
  { intros Gr Pl. exists ts. split; [exact G|]. eapply gen_rust_reads; eauto. }
  unfold label_ok. destruct e as [l| | | |e m| | | | |u e| | | |m]; try contradiction.
  - split; [exact I|]. split; [apply K; exact I|]. destruct l; try contradiction; discriminate.
  - destruct LF as ((t & ->) & DR & PK & (v & A & NV)). split; [exact I|]. split; [apply K; cbn; auto|].
    destruct (item_tree o src home P cb fuel O IS SC n d t m r D HF (no_path _ _ _ PK) E) as (-> & _).
    cbn [pattern]. rewrite A. destruct v as [? v]. exact NV.
  - destruct u; try contradiction. destruct e; try contradiction. destruct l; try contradiction.
    split; [exact I|]. split; [apply K; cbn; auto; lia|]. discriminate.
  - destruct LF as (NM & DR & (v & A & NV)). split; [exact I|]. split; [apply K; cbn; auto|].
    destruct v as [t v].
    destruct (const_noted o src home P cb fuel O IS SC n d m t v r D HF NM A E) as (-> & _).
    cbn [pattern]. rewrite A. exact NV.
Qed.
Lemma def_checked rank n d : nth_error defs n = Some d -> def_fine cb fuel P (call_before P) rank n d -> def_ok cb fuel P rank n d.
Proof using O IS SC.
  intros D (H1 & H2 & H3). split; [exact H1|]. split; [intros i f F; eapply field_checked; eauto|].
  destruct d as [nm p fl|nm p sel cases dflt|nm p fl|nm bt l|nm bt l]; auto.
  destruct H3 as ((m & t & -> & EX & PK) & LB). split.
  - exists (SChoice nm p (EId m) cases dflt), (RField (RAtom "self") m), t. split; [exact D|]. split; [reflexivity|].
    split; [|exact PK]. cbn [before]. change (String.eqb "self" "self") with true. cbn iota.
    unfold find_member. rewrite (find_name_exists m _ 0) in EX. destruct (find_name m _ 0) as [[]|]; [reflexivity|discriminate EX].
  - eapply Forall_impl; [|exact LB]. intros c L. eapply Forall_impl; [|exact L]. intros e LE.
    eapply label_checked; eauto.
Qed.
Theorem fine_checked : fine cb fuel P -> checked cb fuel P.
Proof using O IS SC.
  unfold fine. intros (rank & H). split; [exact (consts_typed src home P IS)|]. exists rank. intros n d D. now apply def_checked, H.
Qed.
End Schema.
