(** Entry points and consequences of the round trip. *)
From Coq Require Import ZArith List Bool Lia ZifyBool.
From Verif Require Import M_Base M_Bits M_Var M_Prim M_Array M_Gen S_Base S_Var S_Array S_Prim S_Gen.
From Verif Require Import P_Base P_Bits P_Var2 P_Prim P_Array P_Array2 P_Array3 P_Array4 P_Gen1 P_Gen2 P_Gen3 P_Gen4 P_Gen5 P_Gen6.
Import ListNotations.
Open Scope Z_scope.
Ltac Zify.zify_post_hook ::= Z.div_mod_to_equations.

Lemma bits_of_data_bytes : forall l, bits_of_data l = bits_of_bytes l.
Proof. induction l as [|b l IH]; [reflexivity|]. cbn [bits_of_data]. rewrite IH. reflexivity. Qed.
Lemma bits_of_data_app : forall a b, bits_of_data (a ++ b) = bits_of_data a ++ bits_of_data b.
Proof. induction a as [|x a IH]; intros b; [reflexivity|]. cbn [app bits_of_data]. rewrite IH, app_assoc. reflexivity. Qed.

Lemma close_bits_spec : forall w,
  zlen (close_bits w) = (zlen w + 7) / 8 /\ Forall is_byte (close_bits w) /\
  exists k, 0 <= k < 8 /\ bits_of_data (close_bits w) = w ++ repeat false (Z.to_nat k).
Proof.
  intros w. unfold close_bits. set (pad := (8 - zlen w mod 8) mod 8). pose proof (zlen_nonneg _ w) as LW.
  assert (HP : 0 <= pad < 8 /\ (zlen w + pad) mod 8 = 0) by (unfold pad; lia).
  assert (HN : (zlen w + pad) / 8 = (zlen w + 7) / 8) by lia.
  assert (LL : zlen (w ++ repeat false (Z.to_nat pad)) = zlen w + pad) by (rewrite zlen_app, zlen_repeat; lia).
  destruct (bytes_of_bits_inv (Z.to_nat ((zlen w + pad) / 8)) (w ++ repeat false (Z.to_nat pad)) ltac:(lia)) as [F E].
  split; [unfold zlen at 1; rewrite bytes_of_bits_length; lia|]. split; [assumption|].
  rewrite skipn_all2, app_nil_r in E by (unfold zlen in *; lia).
  exists pad. split; [lia|]. rewrite bits_of_data_bytes, <- E. reflexivity.
Qed.

Lemma to_bytes_bits : forall o v bs, to_bytes o v = Ok bs ->
  exists c w, oi_write o false no_ctx v [] = Ok (c, w) /\ zlen bs = (zlen w + 7) / 8 /\ Forall is_byte bs /\
    exists k, 0 <= k < 8 /\ bits_of_data bs = w ++ repeat false (Z.to_nat k).
Proof.
  intros o v bs H. unfold to_bytes in H. apply bind_ok in H. destruct H as [[c w] [H1 H2]]. apply ok_inj in H2. subst bs.
  exists c, w. split; [assumption|]. apply close_bits_spec.
Qed.

Section Sch.
Context (E : env) (sch : schema).
Notation im := (impl_at E sch).

(** Any position, any parameters. *)
Lemma bits_roundtrip : wf_schema sch -> forall f n v W c w c' w',
  consistent E sch false n v W -> oi_write (im f n) false c v w = Ok (c', w') ->
  exists bs, w' = w ++ bs /\ exists g0, forall g, (g0 <= g)%nat -> forall init cr rest, fresh E sch n v init ->
    exists cr', oi_read (im g n) false cr init (mkR (zlen w) (bs ++ rest)) = Ok (v, cr', mkR (zlen w') rest).
Proof.
  intros WF f n v W c w c' w' C HW.
  destruct (rt_all E sch WF f false n v W c w c' w' [] C ltac:(discriminate) HW) as (bs & E1 & _ & g0 & RD).
  exists bs. split; [assumption|]. exists g0. intros g Hg init cr rest FR.
  destruct (RD g Hg init cr rest FR ltac:(discriminate)) as (cr' & D & _). eauto.
Qed.

(** The default of an unparameterised type is what reading starts from. *)
Lemma fresh_default : wf_schema sch -> forall n v W d, consistent E sch false n v W -> params_of v = [] ->
  default_of E sch n d -> fresh E sch n v d.
Proof.
  intros WF n v W d C P D. destruct (consistent_params E sch _ _ _ _ C) as (def & ND & LP & SH).
  destruct v; try exact I. destruct (default_obj E sch n def d ND SH D) as (qs & dfs & -> & LQ & _).
  cbn [params_of] in *. subst ps. destruct qs; [|cbn in *; congruence]. exists [], dfs. split; [assumption|reflexivity].
Qed.

Lemma bytes_roundtrip : wf_schema sch -> forall f n v bs, top_value E sch n v -> to_bytes (im f n) v = Ok bs ->
  exists g0, forall g, (g0 <= g)%nat -> forall tail, from_bytes (im g n) (bs ++ tail) = Ok v.
Proof.
  intros WF f n v bs (P & C) HB. destruct (to_bytes_bits _ _ _ HB) as (c & w & HW & _ & _ & k & _ & EB).
  destruct (consistent_params E sch _ _ _ _ C) as (def & ND & _).
  destruct (default_total E sch WF n ltac:(apply nth_error_Some; congruence)) as (d & D).
  destruct (bits_roundtrip WF f n v [] no_ctx [] c w C HW) as (b & -> & g1 & RD). cbn [app] in *.
  destruct D as (g2 & D). exists (Nat.max g1 g2). intros g Hg tail. unfold from_bytes.
  rewrite D by lia. cbn [bind]. rewrite bits_of_data_app, EB, <- app_assoc.
  destruct (RD g ltac:(lia) d no_ctx (repeat false (Z.to_nat k) ++ bits_of_data tail)) as (cr' & R).
  - eapply fresh_default; try eassumption. exists g2. assumption.
  - change (zlen (@nil bool)) with 0 in R. rewrite R. reflexivity.
Qed.

Definition reparam (ps : list value) (d : value) : value :=
  match d with VObj s _ dfs => VObj s ps dfs | x => x end.
Lemma fresh_reparam : forall p n v W d, consistent E sch p n v W -> default_of E sch n d ->
  fresh E sch n v (reparam (params_of v) d).
Proof.
  intros p n v W d C D. destruct (consistent_params E sch _ _ _ _ C) as (def & ND & LP & SH).
  destruct v; try exact I. destruct def; try contradiction;
  destruct (default_obj E sch n _ d ND I D) as (qs & dfs & -> & _); exists qs, dfs; (split; [assumption|reflexivity]).
Qed.

Lemma unique_decoding : wf_schema sch -> forall f n v1 v2 W1 W2 c1 c2 w c1' c2' w1 w2 r1 r2,
  consistent E sch false n v1 W1 -> consistent E sch false n v2 W2 -> params_of v1 = params_of v2 ->
  oi_write (im f n) false c1 v1 w = Ok (c1', w1) -> oi_write (im f n) false c2 v2 w = Ok (c2', w2) ->
  w1 ++ r1 = w2 ++ r2 -> v1 = v2 /\ w1 = w2.
Proof.
  intros WF f n v1 v2 W1 W2 c1 c2 w c1' c2' w1 w2 r1 r2 C1 C2 HP H1 H2 HE.
  destruct (bits_roundtrip WF _ _ _ _ _ _ _ _ C1 H1) as (b1 & E1 & g1 & R1).
  destruct (bits_roundtrip WF _ _ _ _ _ _ _ _ C2 H2) as (b2 & E2 & g2 & R2).
  destruct (consistent_params E sch _ _ _ _ C1) as (def & ND & LP1 & SH1).
  destruct (consistent_params E sch _ _ _ _ C2) as (def' & ND' & LP2 & SH2). rewrite ND in ND'. injection ND' as <-.
  destruct (default_total E sch WF n ltac:(apply nth_error_Some; congruence)) as (d & D).
  assert (exists init, fresh E sch n v1 init /\ fresh E sch n v2 init) as (init & F1 & F2).
  { exists (reparam (params_of v1) d). split; [|rewrite HP]; eapply fresh_reparam; eassumption. }
  destruct (R1 (Nat.max g1 g2) ltac:(lia) init no_ctx r1 F1) as (x1 & D1).
  destruct (R2 (Nat.max g1 g2) ltac:(lia) init no_ctx r2 F2) as (x2 & D2).
  assert (b1 ++ r1 = b2 ++ r2) as EQ.
  { rewrite E1, E2, <- !app_assoc in HE. apply app_inv_head in HE. assumption. }
  rewrite EQ, D2 in D1. assert (v1 = v2) by congruence. split; [congruence|].
  assert (r1 = r2) by congruence. subst r2. apply app_inv_tail in HE. assumption.
Qed.

(** *** Packed arrays of structs *)
Lemma packed_objects_rt : wf_schema sch -> forall f n offs fixed l W w w',
  plain sch n -> (n < length sch)%nat -> Forall (fun v => params_of v = []) l ->
  consistent_items E sch true (TRef n []) [] [] l W -> (fixed = None -> zlen l < 2 ^ 31) ->
  array_write E (mkArr (object_trait (im f n)) true fixed) offs l w = Ok w' ->
  exists bs, w' = w ++ bs /\ exists g0, forall g, (g0 <= g)%nat -> forall rest,
    array_read_full (mkArr (object_trait (im g n)) true fixed) offs (fun _ => oi_default (im g n)) (mkR (zlen w) (bs ++ rest))
    = Ok (l, mkR (zlen w') rest).
Proof.
  intros WF f n offs fixed l W w w' PL Hn PS C HL HW.
  pose proof (length_ok_of_write E (mkArr (object_trait (im f n)) true fixed) offs l w w' HL HW) as LOK. cbn [a_fixed] in LOK.
  unfold array_write in HW. rewrite (array_header_write value E (mkArr (object_trait (im f n)) true fixed) l w LOK) in HW.
  cbn [bind a_fixed a_trait a_packed] in HW.
  assert (CK : check_items (TRef n []) 0 [] [] l = Ok tt).
  { generalize 0. clear. induction l as [|v l IH]; intros i; [reflexivity|]. cbn. apply IH. }
  destruct (rt_packed_objects E sch WF f (rt_all E sch WF f) 0%nat n [] [] [] offs l W W _ w' fixed (Forall_nil _) Hn C CK
    (plain_announced_all E sch WF n [] [] [] l W PL C) (fun q => Z.le_refl _) HW) as (bs & -> & g0 & RD).
  exists (length_prefix fixed (zlen l) ++ bs). split; [now rewrite app_assoc|]. exists g0. intros g Hg rest.
  unfold array_read_full. rewrite <- app_assoc.
  pose proof (array_header_read value (mkArr (object_trait (im g n)) true fixed) (zlen l) (zlen w) (bs ++ rest) LOK (zlen_nonneg _ l)) as HR.
  cbn [a_fixed] in HR. rewrite HR. cbn [bind].
  specialize (RD g Hg [] rest (conj eq_refl eq_refl)). rewrite zlen_app in RD.
  exact RD.
Qed.

End Sch.
