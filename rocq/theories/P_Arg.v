(** Proofs: the texts of array lengths, widths and arguments have the wanted Rust types. *)
From Coq Require Import ZArith List Bool String Lia.
From Verif Require Import M_Base M_Bits M_Expr M_Print S_Expr S_Print S_Rust S_Rust2 M_Types M_Comp S_Comp.
From Verif Require Import P_Base P_Bits P_Expr P_Enum P_Print P_Rust P_Rust2 P_Rust3 P_Rust4.
Import ListNotations.
Open Scope Z_scope.

Lemma name_of_ty n T : rty_of_name n = Some (RTInt (fst T) (snd T)) -> n = ity_name T /\ real_ity T.
Proof.
  destruct T as [s w]. unfold rty_of_name, real_ity. cbn [assoc fst snd].
  repeat match goal with
  | |- context[String.eqb n ?k] => destruct (String.eqb_spec n k);
      [subst n; intros H; first [discriminate H | injection H as <- <-; split; [reflexivity|cbn; tauto]]|]
  end. discriminate.
Qed.

(** [.clone()] behind a text. *)
Definition clone_toks : list tok := [KDot; KAtom "clone"; KLP; KRP].
Lemma Q_clone ts t : Q 12 false ts t -> Q 12 false (ts ++ clone_toks) (RCall (RField t "clone") []).
Proof.
  intros H. unfold clone_toks. change [KDot; KAtom "clone"; KLP; KRP] with ([KDot; KAtom "clone"] ++ [KLP; KRP]).
  rewrite app_assoc. apply Q_call0. now apply Q_field.
Qed.

Section Texts.
Variables (b : build) (fuel : nat) (sc : scope) (tau : expr -> option rty) (L : renv) (rho : valuation).
Hypothesis HD : declares b fuel sc tau L rho.
Hypothesis HW : well_typed L.
Notation evl := (eval b fuel sc).
Notation tr := (tree b fuel sc).
Notation RT T := (RTInt (fst T) (snd T)).

Lemma comp_lev e t v : computes b fuel sc tau rho e t v -> (3 < lev e)%nat.
Proof.
  induction 1 as [z Hz|e m t v IL Hm V|e t v H IH|e w v H IH F
     |o e1 e2 t1 t2 t x y z A H1 IH1 H2 IH2 M X F|o e1 e2 lo hi lo' hi' l h x y z A H1 IH1 H2 IH2 M F
     |e n V B|e t v n H IH M|e lo hi v n H IH F1 F2 M|e n m t v EL Hm V F|e n m t v ML Hm V]; cbn [lev]; try lia.
  - destruct IL as [S _]. destruct e; try discriminate S; cbn [lev]; lia.
  - destruct o; try discriminate A; cbn; lia.
  - destruct o; try discriminate A; cbn; lia.
Qed.

Lemma clone_reads e t v : computes b fuel sc tau rho e t v -> ends_valueof e = false -> forall r ts,
  evl e = Ok r -> gen b fuel sc e = Ok ts -> grouped e -> plain e ->
  exists g, Q (lev e) false (ts ++ clone_toks) g /\ clones (tr e) g.
Proof.
  assert (AT : forall e r ts, atomic e = true -> evl e = Ok r -> gen b fuel sc e = Ok ts -> grouped e -> plain e ->
    exists g, Q (lev e) false (ts ++ clone_toks) g /\ clones (tr e) g).
  { intros a r ts A E G Gr Pl. destruct (atomic_lev _ A) as [LV EV]. pose proof (gen_reads _ _ _ _ _ _ E G Gr Pl) as H.
    rewrite LV, EV in H. rewrite LV. eexists. split; [apply Q_clone, H|apply cl_here]. }
  assert (BIN : forall o e1 e2 r ts, (forall r ts, evl e2 = Ok r -> gen b fuel sc e2 = Ok ts -> grouped e2 -> plain e2 ->
      exists g, Q (lev e2) false (ts ++ clone_toks) g /\ clones (tr e2) g) ->
    is_arith o = true -> (exists v, e_rt r = TInt v) ->
    evl (EBin o e1 e2) = Ok r -> gen b fuel sc (EBin o e1 e2) = Ok ts ->
    grouped (EBin o e1 e2) -> plain (EBin o e1 e2) ->
    exists g, Q (lev (EBin o e1 e2)) false (ts ++ clone_toks) g /\ clones (tr (EBin o e1 e2)) g).
  { intros o e1 e2 r ts IH A [vi N] He Hts Hg Hp.
    destruct (P_Print.operands _ _ _ _ _ _ _ He Hg Hp) as (l & Hl & H1 & H13 & H2 & Hgen).
    assert (Hlev : lev (EBin o e1 e2) = l) by (cbn [lev]; now rewrite Hl). rewrite Hlev. clear e t v.
    assert (He' := He). cbn [eval] in He'.
    apply bind_ok in He' as (x & Hx & He'). apply bind_ok in He' as (y & Hy & _).
    cbn [grouped plain] in Hg, Hp.
    destruct Hg as (_ & _ & Hg1 & Hg2). destruct Hp as (_ & _ & _ & Hp1 & Hp2).
    cbn [gen] in Hts. rewrite Hx, Hy, He in Hts.
    apply bind_ok in Hts as (t0 & Ht & Hts). apply bind_ok in Hts as (u & Hu & Hts).
    rewrite A in Hts. cbn [bind] in Hts. rewrite N in Hts.
    apply bind_ok in Hts as (c & Hc & Hts). apply bind_ok in Hts as (d & Hd & Hts). apply ok_inj in Hts as <-.
    pose proof (gen_reads _ _ _ _ _ _ Hx Ht Hg1 Hp1) as Q1.
    pose proof (gen_reads _ _ _ _ _ _ Hy Hu Hg2 Hp2) as Q2.
    cbn [tree]. rewrite Hx, Hy, He, A, N, Hc, Hd. cbn [ok_or].
    assert (R2 : exists g2, Q (lev e2) false (with_cast d u ++ clone_toks) g2 /\ clones (cast_tree d (tr e2)) g2).
    { destruct d as [n|].
      - cbn [with_cast cast_tree]. eexists. split; [|apply cl_here].
        apply (Q_weaken 12 (lev e2) false false); [|apply lev_le|pose proof (lev_le e2); lia|discriminate].
        apply Q_clone.
        replace ([KLP; KLP] ++ u ++ [KRP; KAs n; KRP])
          with ([KLP] ++ (([KLP] ++ u ++ [KRP]) ++ [KAs n]) ++ [KRP])
          by (cbn; rewrite <- ?app_assoc; reflexivity).
        eapply Q_paren, (Q_as 12); [|lia]. eapply Q_paren, Q2.
      - exact (IH _ _ Hy Hu Hg2 Hp2). }
    destruct R2 as (g2 & R2 & C2). eexists. split; [|apply cl_bin, C2].
    rewrite <- !app_assoc.
    eapply Q_bin; [exact Hl|apply Q_cast; [exact Q1|apply lev_le]|exact R2|exact H1|exact H13|exact H2|exact Hgen]. }
  induction 1 as [z Hz|e m t v IL Hm V|e t v H IH|e w v H IH F
     |o e1 e2 t1 t2 t x y z A H1 IH1 H2 IH2 M X F|o e1 e2 lo hi lo' hi' l h x y z A H1 IH1 H2 IH2 M F
     |e n V B|e t v n H IH M|e lo hi v n H IH F1 F2 M|e n m t v EL Hm V F|e n m t v ML Hm V];
    intros EV r ts ER G Gr Pl; try discriminate EV; try (eapply AT; eauto; reflexivity).
  - eapply AT; eauto. destruct IL as [S _]. destruct e; try discriminate S; reflexivity.
  - cbn [gen tree lev grouped plain] in *.
    cbn [eval] in ER. apply bind_ok in ER as (x & Hx & _).
    apply bind_ok in G as (u & Hu & G). apply ok_inj in G as <-.
    destruct Gr as [Hz Hg]. destruct Pl as (Ho & Hi & Hv & Hp).
    destruct (IH EV _ _ Hx Hu Hg Hp) as (g & R & C). eexists. split; [|apply cl_un, C].
    cbn [app]. eapply Q_prefix; [reflexivity|exact R|].
    destruct e; cbn [lev zlev is_isset is_valueof] in *; try lia; try discriminate.
    destruct o; cbn in Hz; lia.
  - eapply BIN; eauto. apply (computes_num _ _ _ _ _ _ _ _ (cp_arith _ _ _ _ _ _ _ _ _ _ _ _ _ _ A H1 H2 M X F)) in ER.
    apply ER.
  - eapply BIN; eauto. apply (computes_num _ _ _ _ _ _ _ _ (cp_arith_free _ _ _ _ _ _ _ _ _ _ _ _ _ _ _ _ _ A H1 H2 M F)) in ER.
    apply ER.
Qed.

(** Lengths. *)
Theorem length_number e r ts t v T : evl e = Ok r -> len_text b fuel sc e = Ok ts ->
  grouped e -> plain e -> computes b fuel sc tau rho e t v -> suits t T -> 0 <= v ->
  exists g x, rust_reads ts g /\ accepted L g x RTSize
    /\ (forall b', run b' L x = Ok (VI v)) /\ sem rho e = Some (VI v).
Proof.
  intros E G Gr Pl C S P. unfold len_text in G. apply bind_ok in G as (ts' & G & K). apply ok_inj in K as <-.
  destruct (computes_typed _ _ _ _ _ _ HD HW _ _ _ C _ E _ S) as (x & Ex & Tx & Ix & I).
  exists (RCast (RParen (tr e)) "usize"), (XCast (XParen x) "usize").
  split; [eapply function_reads; eauto|]. split; [split|split].
  - cbn [erase]. now rewrite Ex.
  - cbn [ty]. now rewrite Tx.
  - intros b'. cbn [run]. rewrite (ideal_run b' L x _ _ HW Tx Ix). cbn [bind].
    change (rty_of_name "usize") with (Some RTSize). cbn iota. cbn [int_of]. unfold wrap_t, wrap_u. cbn [fst snd].
    rewrite Z.mod_small; [reflexivity|]. destruct S as [RL _]. destruct T as [s w]. unfold in_type in I. cbn [fst snd In] in *.
    destruct s; destruct RL as [<-|[<-|[<-|[<-|[]]]]]; cbn in *; lia.
  - eapply computes_sem; eauto.
Qed.

(** Widths. *)
Theorem width_number arr e r ts t v T : evl e = Ok r -> width_text b fuel sc arr e = Ok ts ->
  grouped e -> plain e -> computes b fuel sc tau rho e t v -> suits t T -> in_type (false, 8) v ->
  (match t with Free _ _ => T = (false, 8) | Typed _ => True end) ->
  exists g x, rust_reads ts g /\ accepted L g x (RTInt false 8)
    /\ (forall b', run b' L x = Ok (VI v)) /\ sem rho e = Some (VI v).
Proof.
  intros E G Gr Pl C S P F. unfold width_text in G. apply bind_ok in G as (ts' & G & K). apply ok_inj in K.
  destruct (computes_typed _ _ _ _ _ _ HD HW _ _ _ C _ E _ S) as (x & Ex & Tx & Ix & I).
  destruct (width_cast b fuel sc arr e) eqn:W; subst ts.
  - exists (RCast (RParen (tr e)) "u8"), (XCast (XParen x) "u8").
    split; [eapply function_reads; eauto|]. split; [split|split].
    + cbn [erase]. now rewrite Ex.
    + cbn [ty]. now rewrite Tx.
    + intros b'. cbn [run]. rewrite (ideal_run b' L x _ _ HW Tx Ix). cbn [bind].
      change (rty_of_name "u8") with (Some (RTInt false 8)). cbn iota. cbn [int_of].
      apply wrap_in in P; [|cbn; tauto]. now rewrite P.
    + eapply computes_sem; eauto.
  - assert (T = (false, 8)).
    { destruct (proj1 (computes_num _ _ _ _ _ _ _ _ C) _ E) as [_ N]. destruct t as [u|lo hi]; [|exact F].
      destruct S as [_ ->]. destruct N as (m & N & RM). unfold width_cast, u8_cast in W. rewrite E in W. cbn [bind] in W.
      rewrite N in W. cbn [native tr_name] in W. apply orb_false_iff in W as [_ W]. apply negb_false_iff, String.eqb_eq in W.
      subst m. now injection RM as <-. }
    subst T. exists (tr e), x. split; [eapply gen_rust_reads; eauto|]. split; [split; assumption|].
    split; [intros b'; eapply ideal_run; eauto|eapply computes_sem; eauto].
Qed.

(** Arguments. *)
Lemma cast_when target R e r t v : evl e = Ok r -> rty_of_name target = Some (RT R) ->
  computes b fuel sc tau rho e t v ->
  arg_cast b fuel sc target e = match t with Typed u => if String.eqb (ity_name u) target then None else Some target | Free _ _ => None end.
Proof.
  intros E HR C. destruct (proj1 (computes_num _ _ _ _ _ _ _ _ C) _ E) as [[vi N] M].
  unfold arg_cast. rewrite E, N. destruct t as [u|lo hi].
  - destruct M as (m & -> & RM). now rewrite (proj1 (rust_int_name _ _ RM)).
  - now rewrite (proj1 M).
Qed.

Theorem argument_number target R e r t v : evl e = Ok r -> rty_of_name target = Some (RT R) ->
  grouped e -> plain e -> computes b fuel sc tau rho e t v -> in_type R v ->
  match t with Typed u => u = R \/ is_binary e = false | Free lo hi => in_type R lo /\ in_type R hi end ->
  ends_valueof e = false -> forall ts, gen b fuel sc e = Ok ts ->
  exists g x, accepted L g x (RT R) /\ (forall b', run b' L x = Ok (VI v)) /\ sem rho e = Some (VI v)
    /\ (exists us, arg_write_text b fuel sc target e = Ok us /\ rust_reads us g)
    /\ (forall p, exists us, arg_check_text b fuel sc p target e = Ok us
          /\ rust_reads us (RBin REq (RField (RAtom "element") p) g))
    /\ (exists us g', arg_read_text b fuel sc target e = Ok us /\ rust_reads us g' /\ clones g g').
Proof.
  intros E HR Gr Pl C P F EV ts G. pose proof (cast_when _ _ _ _ _ _ E HR C) as W.
  destruct (name_of_ty _ _ HR) as [-> RR].
  pose proof (comp_lev _ _ _ C) as LV. pose proof (gen_reads _ _ _ _ _ _ E G Gr Pl) as QG. rewrite EV in QG.
  destruct (clone_reads _ _ _ C EV _ _ E G Gr Pl) as (gc & QC & CC).
  pose proof (computes_sem _ _ _ _ _ _ _ _ C) as SM.
  assert (RD : forall l ea us g, Q l ea us g -> rust_reads us g).
  { intros l ea us g H. destruct (Q_end _ _ _ _ H) as [n K]. exists n. apply K. lia. }
  assert (CHK : forall l ea us g p, Q l ea us g -> (3 < l)%nat ->
    rust_reads ([KAtom "element"; KDot; KAtom p; KOp REq] ++ us) (RBin REq (RField (RAtom "element") p) g)).
  { intros l ea us g p H Hl. apply (RD 3%nat ea).
    change ([KAtom "element"; KDot; KAtom p; KOp REq] ++ us) with (([KAtom "element"] ++ [KDot; KAtom p]) ++ [KOp REq] ++ us).
    eapply Q_bin; [reflexivity|apply Q_field, Q_atom|exact H|lia|lia|exact Hl|discriminate]. }
  unfold arg_check_text, arg_read_text, arg_write_text. rewrite G, E, W. cbn [bind].
  destruct (match t with Typed u => if String.eqb (ity_name u) (ity_name R) then None else Some (ity_name R) | Free _ _ => None end) as [n|] eqn:K; cbn [as_text bind].
  - (* a cast *)
    destruct t as [u|lo hi]; [|discriminate K].
    destruct (String.eqb_spec (ity_name u) (ity_name R)) as [Q|Q]; [discriminate K|]. injection K as <-.
    destruct F as [->|F]; [congruence|].
    assert (S : suits (Typed u) u) by (split; [exact (proj1 (proj2 (computes_num _ _ _ _ _ _ _ _ C)) _ eq_refl)|reflexivity]).
    destruct (computes_typed _ _ _ _ _ _ HD HW _ _ _ C _ E _ S) as (x & Ex & Tx & Ix & I).
    assert (L11 : (10 < lev e)%nat).
    { destruct e; cbn [lev is_binary] in *; try lia; try discriminate F; cbn [ends_valueof] in EV; try discriminate EV. }
    exists (RCast (tr e) (ity_name R)), (XCast x (ity_name R)).
    destruct R as [s w]. split; [split|].
    + cbn [erase]. now rewrite Ex.
    + cbn [ty]. rewrite Tx, ity_name_ty by exact RR. reflexivity.
    + split; [|split; [exact SM|]].
      { intros b'. cbn [run]. rewrite (ideal_run b' L x _ _ HW Tx Ix). cbn [bind].
        rewrite ity_name_ty by exact RR. cbn [int_of]. apply wrap_in in P; [|exact RR]. cbn [fst snd]. now rewrite P. }
      pose proof (Q_as _ _ _ (ity_name (s, w)) QG L11) as QA.
      split; [|split].
      * eexists. split; [reflexivity|]. exact (RD _ _ _ _ QA).
      * intros p. eexists. split; [reflexivity|]. eapply CHK; [exact QA|lia].
      * destruct (e_full r); cbn [app].
        -- eexists. eexists. split; [reflexivity|]. split; [exact (RD _ _ _ _ QA)|apply cl_none].
        -- eexists. eexists. split; [reflexivity|]. split; [|apply cl_cast, CC].
           pose proof (Q_as _ _ _ (ity_name (s, w)) QC L11) as QA'. rewrite <- app_assoc in QA'. exact (RD _ _ _ _ QA').
  - (* none *)
    assert (S : suits t R).
    { split; [exact RR|]. destruct t as [u|lo hi]; [|exact F].
      destruct (String.eqb_spec (ity_name u) (ity_name R)) as [Q|Q]; [|discriminate K].
      symmetry. eapply ity_name_inj; eauto. exact (proj1 (proj2 (computes_num _ _ _ _ _ _ _ _ C)) _ eq_refl). }
    destruct (computes_typed _ _ _ _ _ _ HD HW _ _ _ C _ E _ S) as (x & Ex & Tx & Ix & I).
    exists (tr e), x. split; [split; assumption|]. split; [intros b'; eapply ideal_run; eauto|]. split; [exact SM|].
    rewrite !app_nil_r. split; [|split].
    + eexists. split; [reflexivity|]. exact (RD _ _ _ _ QG).
    + intros p. eexists. split; [reflexivity|]. eapply CHK; [exact QG|exact LV].
    + destruct (e_full r).
      * eexists. eexists. split; [reflexivity|]. rewrite app_nil_r. split; [exact (RD _ _ _ _ QG)|apply cl_none].
      * eexists. eexists. split; [reflexivity|]. split; [exact (RD _ _ _ _ QC)|exact CC].
Qed.

Lemma truth_clone e v : decides b fuel sc tau rho e v -> is_binary e = false -> is_isset e = false -> forall r ts,
  evl e = Ok r -> gen b fuel sc e = Ok ts -> grouped e -> plain e ->
  (10 < lev e)%nat /\ ends_valueof e = false
  /\ exists g, Q (lev e) false (ts ++ clone_toks) g /\ clones (tr e) g.
Proof.
  assert (AT : forall e r ts, atomic e = true -> evl e = Ok r -> gen b fuel sc e = Ok ts -> grouped e -> plain e ->
    (10 < lev e)%nat /\ ends_valueof e = false /\ exists g, Q (lev e) false (ts ++ clone_toks) g /\ clones (tr e) g).
  { intros a r ts A E G Gr Pl. destruct (atomic_lev _ A) as [LV EV]. pose proof (gen_reads _ _ _ _ _ _ E G Gr Pl) as H.
    rewrite LV, EV in H. rewrite LV, EV. split; [lia|split; [reflexivity|]]. eexists. split; [apply Q_clone, H|apply cl_here]. }
  induction 1 as [v|e v BL V|e v H IH|e v H IH|o e1 e2 t1 t2 p q v CM H1 H2 CP M
     |e1 e2 v H1 IH1 H2 IH2|e1 e2 H1 IH1 H2|e1 e2 v H1 IH1 H2 IH2|e1 e2 H1 IH1 H2
     |o e1 e2 u x y v OO N1 N2 V1 V2 MV|e1 e2 n m s w x y M Hm N V1 V2];
    intros NB NI r ts ER G Gr Pl; try discriminate NB; try discriminate NI.
  - eapply AT; eauto.
  - destruct BL as [S _]. eapply AT; eauto. destruct e; try discriminate S; reflexivity.
  - eapply AT; eauto.
  - rewrite (unary_no_valueof _ _ Gr Pl). cbn [gen tree lev grouped plain] in *.
    cbn [eval] in ER. apply bind_ok in ER as (x & Hx & _).
    apply bind_ok in G as (u & Hu & G). apply ok_inj in G as <-.
    destruct Gr as [Hz Hg]. destruct Pl as (Ho & Hi & Hv & Hp).
    assert (NB' : is_binary e = false).
    { destruct e; try reflexivity. destruct o; cbn in Hz; lia. }
    destruct (IH NB' Hi _ _ Hx Hu Hg Hp) as (LV & _ & g & R & C). split; [lia|split; [reflexivity|]].
    eexists. split; [|apply cl_un, C]. cbn [app]. eapply Q_prefix; [reflexivity|exact R|lia].
Qed.

Theorem argument_truth target e r v : evl e = Ok r -> grouped e -> plain e ->
  decides b fuel sc tau rho e v -> is_binary e = false -> is_isset e = false ->
  forall ts, gen b fuel sc e = Ok ts ->
  exists g x, accepted L g x RTBool /\ (forall b', run b' L x = Ok (VB v)) /\ sem rho e = Some (VB v)
    /\ (exists us, arg_write_text b fuel sc target e = Ok us /\ rust_reads us g)
    /\ (forall p, exists us, arg_check_text b fuel sc p target e = Ok us
          /\ rust_reads us (RBin REq (RField (RAtom "element") p) g))
    /\ (exists us g', arg_read_text b fuel sc target e = Ok us /\ rust_reads us g' /\ clones g g').
Proof.
  intros E Gr Pl C NB NI ts G.
  destruct (decides_typed _ _ _ _ _ _ HD HW _ _ C _ E) as (x & Ex & Tx & Ix).
  destruct (decides_bool _ _ _ _ _ _ _ C _ E) as (w & N).
  destruct (truth_clone _ _ C NB NI _ _ E G Gr Pl) as (LV & EV & gc & QC & CC).
  pose proof (gen_reads _ _ _ _ _ _ E G Gr Pl) as QG. rewrite EV in QG.
  assert (W : arg_cast b fuel sc target e = None) by (unfold arg_cast; now rewrite E, N).
  assert (RD : forall l ea us g, Q l ea us g -> rust_reads us g).
  { intros l ea us g H. destruct (Q_end _ _ _ _ H) as [n K]. exists n. apply K. lia. }
  unfold arg_check_text, arg_read_text, arg_write_text. rewrite G, E, W. cbn [bind as_text].
  exists (tr e), x. split; [split; assumption|]. split; [intros b'; eapply ideal_run; eauto|].
  split; [eapply decides_sem; eauto|]. rewrite !app_nil_r. split; [|split].
  - eexists. split; [reflexivity|]. exact (RD _ _ _ _ QG).
  - intros p. eexists. split; [reflexivity|]. apply (RD 3%nat false).
    change ([KAtom "element"; KDot; KAtom p; KOp REq] ++ ts) with (([KAtom "element"] ++ [KDot; KAtom p]) ++ [KOp REq] ++ ts).
    eapply Q_bin; [reflexivity|apply Q_field, Q_atom|exact QG|lia|lia|lia|discriminate].
  - destruct (e_full r).
    + eexists. eexists. split; [reflexivity|]. rewrite app_nil_r. split; [exact (RD _ _ _ _ QG)|apply cl_none].
    + eexists. eexists. split; [reflexivity|]. split; [exact (RD _ _ _ _ QC)|exact CC].
Qed.
End Texts.
