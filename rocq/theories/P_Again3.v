(** Whole messages: what is decoded can be written again. *)
From Coq Require Import ZArith List Bool Lia.
From Verif Require Import M_Base M_Bits M_Var M_Prim M_Array M_Gen S_Base S_Var S_Array S_Prim S_Gen S_Wire S_Again.
From Verif Require Import P_Base P_Gen3 P_Again2.
From Verif Require P_Wire5.
Import ListNotations.
Open Scope Z_scope.

(** ** Limits in tame schemas *)
Fixpoint all_modest (l : list value) : Prop :=
  match l with [] => True | x :: l => modest x /\ all_modest l end.
Lemma modest_arr : forall l, modest (VArr l) = (zlen l < 2 ^ 31 /\ all_modest l).
Proof. reflexivity. Qed.
Lemma modest_obj : forall s ps fs, modest (VObj s ps fs) = (forallb float_free ps = true /\ all_modest fs).
Proof. reflexivity. Qed.
Lemma all_modest_in : forall l x, all_modest l -> In x l -> modest x.
Proof. induction l as [|y l IH]; intros x H I; [destruct I|]. destruct H as [H1 H2]. destruct I as [->|I]; auto. Qed.

Lemma tame_small : forall b n v, tame_bty b -> modest v -> small b n v.
Proof.
  intros b n v T M. destruct b; cbn [tame_bty] in T; destruct v; cbn [small]; auto;
    repeat match goal with |- context [if ?x then _ else _] => destruct x | |- context [match ?x with VU16 => _ | _ => _ end] => destruct x end;
    auto; try (destruct T; fail).
Qed.

Section Tame.
Context (sch : schema) (dbg : bool) (T : tame sch).

(** Everything that is asked of a value, wherever it stands. *)
Definition fine (v : value) : Prop :=
  (forall n, within sch dbg n v) /\ forallb float_free (params_of v) = true.

Lemma fine_item : forall t ps fs v, match t with TB b => tame_bty b | TRef _ _ => True end -> modest v -> fine v ->
  item_within sch dbg t ps fs v.
Proof using.
  intros t ps fs v TT M [W F]. constructor.
  - intros b n -> _. apply tame_small; assumption.
  - intros n args ->. auto.
Qed.

Lemma fine_payload : forall f ps fs v, tame_field f -> modest v -> fine v ->
  (forall l x, v = VArr l -> In x l -> fine x) -> payload_within sch dbg f ps fs v.
Proof using.
  intros f ps fs v [T1 T2] M F A. constructor.
  - intros _. apply fine_item; assumption.
  - intros a l _ -> _. rewrite modest_arr in M. apply M.
  - intros a l x _ _ -> I. rewrite modest_arr in M. apply fine_item; [assumption|apply (all_modest_in l x); [apply M|exact I]|exact (A l x eq_refl I)].
  - intros a b n l HA P. rewrite HA in T2. cbn in T2. rewrite T2 in P. discriminate.
Qed.

(** The value itself, what is inside an option, and the elements of an array. *)
Definition deep (v : value) : Prop :=
  fine v /\ (forall l x, v = VArr l -> In x l -> fine x)
  /\ (forall w, v = VSome w -> modest w /\ fine w /\ forall l x, w = VArr l -> In x l -> fine x).

Lemma deep_field : forall f ps fs v, tame_field f -> modest v -> deep v -> field_within sch dbg f ps fs v.
Proof using.
  intros f ps fs v TF M (D1 & D2 & D3). constructor. intros x _ HX. destruct (f_optional f).
  - subst v. destruct (D3 _ eq_refl) as (M' & F' & A'). apply fine_payload; assumption.
  - subst v. apply fine_payload; assumption.
Qed.

Lemma not_object : forall v, match v with VObj _ _ _ => False | _ => True end -> modest v -> fine v.
Proof using T.
  intros v NO M. split.
  - intros n. constructor; try (intros; subst v; destruct NO).
    intros b values H. apply tame_small; [|exact M]. exact (proj2 (T _ _ H)).
  - destruct v; try reflexivity. destruct NO.
Qed.

Lemma modest_deep : forall v, modest v -> deep v.
Proof using T.
  apply (value_ind' (fun v => modest v -> deep v)).
  - intros v TV M. split; [|split].
    + apply not_object; [destruct v; (exact Logic.I || exact TV)|exact M].
    + intros l x ->. destruct TV.
    + intros w ->. destruct TV.
  - intros w IH M. destruct (IH M) as (D1 & D2 & D3). split; [|split].
    + apply not_object; [exact I|exact M].
    + discriminate.
    + intros u X. injection X as <-. auto.
  - intros l IH M. split; [|split].
    + apply not_object; [exact I|exact M].
    + intros l' x X IX. injection X as <-. rewrite Forall_forall in IH. rewrite modest_arr in M.
      exact (proj1 (IH x IX (all_modest_in l x (proj2 M) IX))).
    + discriminate.
  - intros s ps fs _ IH M. rewrite modest_obj in M. destruct M as [MP MF].
    assert (FW : forall f w, tame_field f -> In w fs -> field_within sch dbg f ps fs w).
    { intros f w TF IW. pose proof (all_modest_in _ _ MF IW) as MW. rewrite Forall_forall in IH.
      apply deep_field; [exact TF|exact MW|exact (IH w IW MW)]. }
    split; [|split; [discriminate|discriminate]]. split; [|exact MP]. intros n. constructor.
    + intros params fields s' ps' fs' i f w ND X NF NW. injection X as <- <- <-. apply FW; [|exact (nth_error_In _ _ NW)].
      pose proof (proj1 (T _ _ ND)) as F. rewrite Forall_forall in F. apply F. exact (nth_error_In _ _ NF).
    + intros params sel cases dflt s' ps' fs' x i f force w ND X _ CA NW. injection X as <- <- <-.
      apply FW; [|exact (nth_error_In _ _ NW)]. pose proof (proj1 (T _ _ ND)) as F. rewrite Forall_forall in F. apply F.
      cbn [def_fields]. destruct (choice_arm_nth _ _ _ _ _ _ _ CA) as [_ NF]. exact (nth_error_In _ _ NF).
    + intros params fields s' ps' fs' f w ND X NF NW. injection X as <- <- <-. apply FW; [|exact (nth_error_In _ _ NW)].
      pose proof (proj1 (T _ _ ND)) as F. rewrite Forall_forall in F. apply F. exact (nth_error_In _ _ NF).
    + intros b values ND. destruct b as [| |[]|k| | | | | | | |]; try exact Logic.I; destruct k; exact Logic.I.
Qed.

Lemma modest_within : forall n v, modest v -> within sch dbg n v.
Proof using T. intros n v M. destruct (modest_deep v M) as ((W & _) & _). apply W. Qed.

End Tame.

(** ** Main theorems *)
Lemma again_portable : forall sch, able sch -> forall n d, nth_error sch n = Some d -> def_params d = [] ->
  forall E g data v, from_bytes (impl_at E sch g n) data = Ok v -> within sch true n v ->
  exists bytes, forall E', exists k, forall g', (k <= g')%nat ->
    to_bytes (impl_at E' sch g' n) v = Ok bytes
    /\ forall tail, from_bytes (impl_at E' sch g' n) (bytes ++ tail) = Ok v.
Proof.
  intros sch AB n d ND DP E g data v H WI.
  destruct (bytes_good E E sch true AB g n d data v ND DP H WI) as [_ [ts W]]. exists (close_bits (bits_at 0 ts)). intros E'.
  destruct (bytes_good E E' sch true AB g n d data v ND DP H WI) as [TV _].
  assert (W' : wire sch (is_debug (e_build E')) false n v ts).
  { destruct (is_debug (e_build E')); [exact W|]. apply P_Wire5.wire_release. exact W. }
  destruct (P_Wire5.wire_bytes E' sch (proj1 AB) n v ts W') as [k1 K1].
  destruct (P_Wire5.wire_read E' sch (proj1 AB) n v ts TV W') as [k2 K2].
  exists (Nat.max k1 k2). intros g' G. split; [apply K1; lia|intros tail; apply K2; lia].
Qed.

Lemma again_env : forall sch, able sch -> forall n d, nth_error sch n = Some d -> def_params d = [] ->
  forall E g data v, from_bytes (impl_at E sch g n) data = Ok v ->
  forall E', within sch (is_debug (e_build E')) n v ->
  exists bytes k, forall g', (k <= g')%nat ->
    to_bytes (impl_at E' sch g' n) v = Ok bytes
    /\ forall tail, from_bytes (impl_at E' sch g' n) (bytes ++ tail) = Ok v.
Proof.
  intros sch AB n d ND DP E g data v H E' WI.
  destruct (bytes_good E E' sch _ AB g n d data v ND DP H WI) as [TV [ts W]].
  destruct (P_Wire5.wire_bytes E' sch (proj1 AB) n v ts W) as [k1 K1].
  destruct (P_Wire5.wire_read E' sch (proj1 AB) n v ts TV W) as [k2 K2].
  exists (close_bits (bits_at 0 ts)), (Nat.max k1 k2). intros g' G. split; [apply K1; lia|intros tail; apply K2; lia].
Qed.

Lemma again_modest : forall sch, able sch -> tame sch -> forall n d, nth_error sch n = Some d -> def_params d = [] ->
  forall E g data v, from_bytes (impl_at E sch g n) data = Ok v -> modest v ->
  exists bytes, forall E', exists k, forall g', (k <= g')%nat ->
    to_bytes (impl_at E' sch g' n) v = Ok bytes
    /\ forall tail, from_bytes (impl_at E' sch g' n) (bytes ++ tail) = Ok v.
Proof.
  intros sch AB T n d ND DP E g data v H M. eapply again_portable; try eassumption. apply modest_within; assumption.
Qed.
