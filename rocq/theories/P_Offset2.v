(** Proofs for C79: which offsets the compiler accepts. *)
From Coq Require Import ZArith List Bool String Lia.
From Verif Require Import M_Base M_Gen M_Expr M_Scope M_Templ M_Pkg M_Link M_Visit M_Comp M_Whole M_Offset.
From Verif Require Import S_Expr S_Pkg S_Link S_Tree S_Offset P_Base P_Scope P_Pkg P_Link P_Offset.
Import ListNotations.
Open Scope nat_scope.

Section One.
Context (o : string -> hash_order body) (src : sources).
Hypothesis O : forall p, some_order (o p).
Hypothesis WF : well_formed src.
Local Notation M := (link o (parsed src)).

Lemma refers_path p here e x : refers src p here e x -> exists t q, S_Link.path src p here e (SyField t) q.
Proof using.
  intros [k y m t D Mm|e' fo t q q' n k y m u H Me K Mm].
  - exists t, p. now apply (PathMember src p here k y).
  - exists u, q'. now apply (PathDot src p here e' fo t q n k y).
Qed.
Lemma path_refers p here e t q : S_Link.path src p here e (SyField t) q -> exists x, refers src p here e x.
Proof using.
  intros H. remember (SyField t) as s eqn:Es. destruct H as [k x m s D Mm|q k x m NL SE D|e fo t' q n k x m s H q' Me K Mm]; subst.
  - exists (p, here, m). eapply RefOwn; eauto.
  - destruct x; discriminate Es.
  - exists (q', n, m). eapply RefDot; eauto.
Qed.
Lemma named_refers p here e s q cb f y : S_Link.path src p here e s q -> (exists t, s = SyField t \/ s = SyParam t) ->
  field_named cb f M p here e = Some y -> refers src p here e y.
Proof using O WF.
  intros H FP E. assert (exists t, s = SyField t) as [t ->].
  { unfold field_named in E. destruct (eval cb f (scope_at f M p (Some here)) e) as [r|e'| |] eqn:Er; try discriminate E.
    destruct (path_symbol o src O WF p here e s q H FP cb f r Er) as [Sr|Sr]; rewrite Sr in E; [discriminate E|].
    destruct FP as [t [-> | ->]]; [eauto|discriminate E]. }
  destruct (path_refers p here e t q H) as [x R]. now rewrite (refers_named o src O WF p here e x y cb f R E).
Qed.
Lemma borrowed_crosses p here e s q cb f y : S_Link.path src p here e s q -> (exists t, s = SyField t \/ s = SyParam t) ->
  In y (borrowed cb f M p here e) -> crosses src p here e y.
Proof using O WF.
  intros H. induction H as [k x m s D Mm|q k x m NL SE D|e fo t q n k x m s H IH q' Me K Mm]; intros FP I.
  - pose proof (PathMember src p here k x m s D Mm) as H. cbn [borrowed] in I. rewrite app_nil_r in I.
    destruct (field_named cb f M p here (EId m)) as [z|] eqn:E; [|destruct I]. destruct I as [<-|[]].
    apply CrHere. exact (named_refers p here _ s p cb f z H FP E).
  - destruct FP as [t [E'|E']]; destruct x; discriminate E'.
  - pose proof (PathDot src p here e fo t q n k x m s H q' Me K Mm) as H'. cbn [borrowed] in I. apply in_app_or in I as [I|I].
    + destruct (field_named cb f M p here (EDot e m)) as [z|] eqn:E; [|destruct I]. destruct I as [<-|[]].
      apply CrHere. exact (named_refers p here _ s q' cb f z H' FP E).
    + apply CrDot. apply IH; [exists t; destruct fo; auto|exact I].
Qed.
Lemma not_own own l : ~ In own l -> existsb (same_spot own) l = false.
Proof using.
  intros N. destruct (existsb (same_spot own) l) eqn:E; [|reflexivity]. apply existsb_exists in E as (y & I & E).
  apply same_spot_iff in E. subst y. now elim N.
Qed.
(** What a path to a field is evaluated to, eventually. *)
Lemma named_eventually p here e x t q : unambiguous src p -> In p (map fst src) -> refers src p here e x ->
  S_Link.path src p here e (SyField t) q -> has_type src q (SyField t) ->
  eventually (fun f => forall cb, field_named cb f M p here e = Some x
    /\ exists r, eval cb f (scope_at f M p (Some here)) e = Ok r /\ typed src q (SyField t) r).
Proof using O WF.
  intros U IP R H HT. destruct (path_typed o src O WF p here e _ q U H IP) as [_ PT]. destruct (PT HT) as [N1 E1]. clear PT.
  destruct R as [k y m t' D Mm|e' fo t' q0 q' n k y m u H' Me K Mm].
  - exists N1. intros f L cb. destruct (E1 f L cb) as (r & E & Es & T). split; [|eauto].
    unfold field_named. rewrite E, Es. reflexivity.
  - destruct (path_typed o src O WF p here e' _ q0 U H' IP) as [_ PT].
    destruct PT as [N2 E2].
    { intros t0 Et. exists (Declared q' n k y). split; [|exact I].
      assert (t0 = t') as -> by (destruct fo; cbn in Et; congruence). exact Me. }
    destruct (compound_place_means o src O WF q0 t' q' n k y Me) as ([N3 C] & _ & _).
    assert (SN : symbol_name (LDecl k n y) = n) by (destruct K as [-> | ->]; reflexivity). rewrite SN in C.
    exists (N1 + N2 + N3). intros f L cb. destruct (E1 f ltac:(lia) cb) as (r & E & Es & T). split; [|eauto].
    destruct (E2 f ltac:(lia) cb) as (r' & E' & Es' & _). unfold field_named. rewrite E, Es, E', Es'.
    destruct fo; rewrite C by lia; reflexivity.
Qed.
Theorem accepted p here own e x t q : unambiguous src p -> In p (map fst src) -> refers src p here e x ->
  S_Link.path src p here e (SyField t) q -> has_type src q (SyField t) -> (forall y, crosses src p here e y -> y <> own) ->
  eventually (fun f => forall cb, mark_offset cb f M p here own e = Ok x).
Proof using O WF.
  intros U IP R H HT NC. destruct (named_eventually p here e x t q U IP R H HT) as [N E]. exists N. intros f L cb.
  destruct (E f L cb) as (F & r & Er & _). unfold mark_offset. rewrite not_own.
  - rewrite Er. cbn [bind]. replace (offset_target e) with e by (destruct R; reflexivity). now rewrite F.
  - intros I. apply (NC own); [|reflexivity]. exact (borrowed_crosses p here e _ q cb f own H ltac:(eauto) I).
Qed.
Theorem accepted_index p here own a x t q : unambiguous src p -> In p (map fst src) -> refers src p here a x ->
  S_Link.path src p here a (SyField t) q -> integer_type src q t -> (forall y, crosses src p here a y -> y <> own) ->
  eventually (fun f => forall cb, mark_offset cb f M p here own (EElem a EIndex) = Ok x).
Proof using O WF.
  intros U IP R H (nm & Me & IC) NC.
  destruct (named_eventually p here a x t q U IP R H) as [N E].
  { intros t' Et. injection Et as <-. exists (Builtin nm). split; [exact Me|]. exists CI. exact IC. }
  exists N. intros f L cb. destruct (E f L cb) as (F & r & Er & T). cbn in T. destruct T as (pl & Me' & SH).
  rewrite (means_fun o src O WF q t _ Me pl Me') in SH. destruct SH as (c & IC' & Hc & _).
  assert (RT : exists z, e_rt r = TInt z).
  { assert (c = CI) as ->.
    { clear - IC IC'. cbn in IC. repeat (destruct IC as [IC|IC]; [first [discriminate IC | injection IC as <-; cbn in IC';
        repeat (destruct IC' as [IC'|IC']; [first [discriminate IC' | now injection IC' as <-]|]); destruct IC']|]). destruct IC. }
    destruct (e_rt r); try discriminate Hc. eauto. }
  destruct RT as [z RT]. unfold mark_offset.
  assert (FE : field_named cb f M p here (EElem a EIndex) = None).
  { unfold field_named. destruct (eval cb f (scope_at f M p (Some here)) (EElem a EIndex)) as [v|e'| |]; try reflexivity.
    destruct (e_sym v) as [[]|]; reflexivity. }
  assert (FI : field_named cb f M p here EIndex = None).
  { unfold field_named. destruct (eval cb f (scope_at f M p (Some here)) EIndex) as [v|e'| |]; try reflexivity.
    destruct (e_sym v) as [[]|]; reflexivity. }
  rewrite not_own.
  - cbn [eval offset_target]. rewrite Er. cbn [bind]. rewrite RT. cbn [bind]. now rewrite F.
  - intros I. cbn [borrowed] in I. rewrite FE, FI in I. cbn [app] in I. rewrite !app_nil_r in I.
    apply (NC own); [|reflexivity]. exact (borrowed_crosses p here a _ q cb f own H ltac:(eauto) I).
Qed.
(** What is refused. *)
Theorem refused p here own e s q : unambiguous src p -> In p (map fst src) -> S_Link.path src p here e s q ->
  has_type src q s -> (forall t, s <> SyField t) ->
  eventually (fun f => forall cb, mark_offset cb f M p here own e = Panic).
Proof using O WF.
  intros U IP H HT NF. destruct (path_typed o src O WF p here e s q U H IP) as [_ PT]. destruct (PT HT) as [N E].
  exists N. intros f L cb. destruct (E f L cb) as (r & Er & Es & _). unfold mark_offset. destruct (existsb _ _); [reflexivity|].
  rewrite Er. cbn [bind]. replace (offset_target e) with e by (destruct H; reflexivity).
  unfold field_named. rewrite Er, Es. destruct s; try reflexivity. elim (NF t). reflexivity.
Qed.
Theorem refused_paren p here own e s q : unambiguous src p -> In p (map fst src) -> S_Link.path src p here e s q ->
  has_type src q s -> eventually (fun f => forall cb, mark_offset cb f M p here own (EParen e) = Panic).
Proof using O WF.
  intros U IP H HT. destruct (path_typed o src O WF p here e s q U H IP) as [_ PT]. destruct (PT HT) as [N E].
  exists N. intros f L cb. destruct (E f L cb) as (r & Er & Es & _). unfold mark_offset. destruct (existsb _ _); [reflexivity|].
  cbn [offset_target]. unfold field_named. cbn [eval]. rewrite Er. reflexivity.
Qed.
Theorem refused_own p here own e s q : unambiguous src p -> In p (map fst src) -> crosses src p here e own ->
  S_Link.path src p here e s q -> has_type src q s ->
  eventually (fun f => forall cb, mark_offset cb f M p here own e = Panic).
Proof using O WF.
  intros U IP C H HT. pose (y := own). assert (EY : y = own) by reflexivity. clearbody y. rewrite <- EY in C.
  assert (G : forall s q, S_Link.path src p here e s q -> has_type src q s -> eventually (fun f => forall cb, In y (borrowed cb f M p here e))).
  { clear own EY s q H HT. induction C as [e y R|e m y C IH]; intros s q H HT.
    - assert (exists t, s = SyField t) as [t ->].
      { destruct (refers_path p here e y R) as (t & q0 & H0).
        destruct (path_typed o src O WF p here e s q U H IP) as [_ PT]. destruct (PT HT) as [N E].
        destruct (E N (le_n N) Debug) as (r & Er & Es & _).
        destruct (path_symbol o src O WF p here e _ q0 H0 ltac:(eauto) Debug N r Er) as [X|X]; rewrite X in Es; [discriminate Es|].
        exists t. congruence. }
      destruct (named_eventually p here e y t q U IP R H HT) as [N E]. exists N. intros f L cb. destruct (E f L cb) as [F _].
      destruct e; cbn [borrowed]; rewrite F; now left.
    - inversion H as [| |e2 fo t q2 n k x m2 s2 H2 q' Me K Mm]; subst.
      destruct (IH _ _ H2) as [N E].
      { intros t0 Et. exists (Declared q n k x). split; [|exact I].
        assert (t0 = t) as -> by (destruct fo; cbn in Et; congruence). exact Me. }
      exists N. intros f L cb. cbn [borrowed]. apply in_or_app. right. apply E. exact L. }
  destruct (G _ _ H HT) as [N E]. exists N. intros f L cb. unfold mark_offset.
  replace (existsb _ _) with true; [reflexivity|]. symmetry. apply existsb_exists. exists y. split; [exact (E f L cb)|].
  apply same_spot_iff. now symmetry.
Qed.
End One.
