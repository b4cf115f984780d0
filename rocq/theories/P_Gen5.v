(** Generated types: fields, objects and the entry points. *)
From Coq Require Import ZArith List Bool Lia ZifyBool.
From Verif Require Import M_Base M_Bits M_Var M_Prim M_Array M_Gen S_Base S_Var S_Array S_Prim S_Gen.
From Verif Require Import P_Base P_Bits P_Var2 P_Prim P_Array P_Array2 P_Array3 P_Array4 P_Gen1 P_Gen2 P_Gen3 P_Gen4.
Import ListNotations.
Open Scope Z_scope.

Section Sch.
Context (E : env) (sch : schema).
Notation im := (impl_at E sch).

Definition trait_of (t : ty) (n : Z) (m : nat -> obj_impl) : array_trait value :=
  match t with TB b => delta_trait E (bty_ops E b n) | TRef k _ => object_trait (m k) end.

Lemma inst_inv : forall m fd force ps fs arr, instantiate_array E m fd force ps fs = Ok arr ->
  (f_array fd = None /\ arr = None /\ forall m' fs', instantiate_array E m' fd force ps fs' = Ok None) \/
  exists a n len, f_array fd = Some a /\ arr = Some (mkArr (trait_of (f_ty fd) n m) ((as_packed a || force) && is_packable fd) len)
    /\ (forall b, f_ty fd = TB b -> num_bits b ps fs = Ok n) /\ (as_len a = None <-> len = None)
    /\ (forall m' i fs', field_ok i fd -> agree i fs fs' -> instantiate_array E m' fd force ps fs'
          = Ok (Some (mkArr (trait_of (f_ty fd) n m') ((as_packed a || force) && is_packable fd) len))).
Proof.
  intros m fd force ps fs arr H. unfold instantiate_array in *. destruct (f_array fd) as [a|] eqn:FA.
  - right. apply bind_ok in H. destruct H as [tr [H1 H]]. apply bind_ok in H. destruct H as [len [H2 H]].
    apply ok_inj in H. subst arr.
    assert (X : exists n, tr = trait_of (f_ty fd) n m /\ (forall b, f_ty fd = TB b -> num_bits b ps fs = Ok n)).
    { destruct (f_ty fd) as [b|k args].
      - apply bind_ok in H1. destruct H1 as [n [N1 N2]]. apply ok_inj in N2. subst tr. exists n. split; [reflexivity|]. intros b' X. congruence.
      - apply ok_inj in H1. subst tr. exists 0. split; [reflexivity|]. intros; discriminate. }
    destruct X as (n & -> & HN). exists a, n, len. split; [reflexivity|]. split; [reflexivity|]. split; [assumption|]. split.
    { destruct (as_len a); [apply rmap_ok in H2; destruct H2 as (? & _ & ->)|apply ok_inj in H2; subst len]; split; congruence. }
    intros m' i fs' (_ & FO & TO & _) AG. rewrite FA in FO. cbn [opt] in FO.
    assert (LEN : match as_len a with Some e => rmap (fun x => Some (wrap_u 64 x)) (e 0 ps fs') | None => Ok None end = Ok len).
    { destruct (as_len a) as [e|]; [|assumption]. cbn [opt] in FO. rewrite <- (FO 0 ps fs fs' (proj1 AG) (proj2 AG)). assumption. }
    destruct (f_ty fd) as [b|k args].
    + rewrite <- (num_bits_local i b ps fs fs') by (try assumption; destruct b; assumption).
      rewrite (HN b eq_refl). cbn [bind]. rewrite LEN. reflexivity.
    + cbn [bind]. rewrite LEN. reflexivity.
  - left. apply ok_inj in H. subst. auto.
Qed.

Definition field_ref (fd : field) : Prop :=
  match f_ty fd with TRef m _ => (m < length sch)%nat /\ f_is_offset fd = false | TB _ => True end.

Lemma at_create_builtin : forall b n, at_create (delta_trait E (bty_ops E b n)) = Ok (Node (Some dctx_new) []).
Proof. reflexivity. Qed.

Lemma fresh_builtin : forall m b ps fs, forall j : Z, exists x, fresh_item m (TB b) ps fs j = Ok x.
Proof. intros. eexists. reflexivity. Qed.

(** Array payloads: common end. *)
Lemma rt_array_payload : forall p i fd ps fs n a len l c w w' f0,
  length_ok len (zlen l) ->
  array_write E (mkArr (trait_of (f_ty fd) n (im f0)) a len) (offs_of fd) l w = Ok w' ->
  (forall bs0 w1, w1 = w ++ bs0 ->
    (match l with [] => Ok w1 | _ =>
      if a then do c <- at_create (trait_of (f_ty fd) n (im f0)) ; do c <- init_all (trait_of (f_ty fd) n (im f0)) c l ;
                do (_, w2) <- write_packed_all (trait_of (f_ty fd) n (im f0)) (offs_of fd) c l w1 ; Ok w2
      else write_all (trait_of (f_ty fd) n (im f0)) (offs_of fd) l w1 end) = Ok w' ->
    exists bs, w' = w1 ++ bs /\ ev (fun g => forall fs' rest, agree i fs fs' ->
      array_read (mkArr (trait_of (f_ty fd) n (im g)) a len) (offs_of fd) (fresh_item (im g) (f_ty fd) ps fs') (zlen l)
        (mkR (zlen w1) (bs ++ rest)) = Ok (l, mkR (zlen w') rest))) ->
  (match f_ty fd with TRef k (_ :: _) => exists c, ev (fun g => oi_create (im g k) no_ctx = Ok c) | _ => True end) ->
  exists bs, w' = w ++ bs /\
    ev (fun g => forall fs' cr rest, agree i fs fs' -> PS p c cr -> exists cr',
      decode_payload E (im g) p (Some (mkArr (trait_of (f_ty fd) n (im g)) a len)) i fd ps fs' cr (mkR (zlen w) (bs ++ rest))
      = Ok (VArr l, cr', mkR (zlen w') rest) /\ PS p c cr').
Proof.
  intros p i fd ps fs n a len l c w w' f0 HL HW HB HC.
  unfold array_write in HW. rewrite (array_header_write value E (mkArr (trait_of (f_ty fd) n (im f0)) a len) l w HL) in HW. cbn [bind a_fixed a_trait a_packed] in HW.
  destruct (HB _ _ eq_refl HW) as (bs & -> & RD). clear HB.
  exists (length_prefix len (zlen l) ++ bs). split; [now rewrite app_assoc|].
  assert (HC' : ev (fun g => match f_ty fd with TRef _ (_ :: _) => rmap (fun _ => tt) (at_create (trait_of (f_ty fd) n (im g))) | _ => Ok tt end = Ok tt)).
  { destruct (f_ty fd) as [b|k [|a0 args]]; try (apply ev_true; reflexivity). destruct HC as (c0 & HC).
    apply (ev_impl _ _ HC). intros g Hg. cbn [trait_of object_trait at_create]. rewrite Hg. reflexivity. }
  apply (ev_impl2 _ _ _ RD HC'). clear RD HC'. intros g RD HC' fs' cr rest AG SM. exists cr. split; [|assumption].
  cbn [decode_payload]. rewrite <- app_assoc.
  pose proof (array_header_read value (mkArr (trait_of (f_ty fd) n (im g)) a len) (zlen l) (zlen w) (bs ++ rest) HL (zlen_nonneg _ l)) as HR.
  cbn [a_fixed] in HR. rewrite HR.
  cbn [bind a_trait a_fixed]. cbn [a_trait] in HC'. rewrite HC'. cbn [bind].
  cbn [a_fixed] in RD. rewrite (zlen_app _ w (length_prefix len (zlen l))) in RD. rewrite (RD fs' rest AG). reflexivity.
Qed.

Lemma to_nat_zlen : forall A (l : list A), Z.to_nat (zlen l) = length l.
Proof. intros. unfold zlen. lia. Qed.

Lemma array_rt_inner : forall b n fixed offs l w w' a,
  length_ok fixed (zlen l) ->
  (forall mk, (forall j, exists x, mk j = Ok x) -> arr_rt E (mkArr (delta_trait E (bty_ops E b n)) a fixed) offs mk l) ->
  array_write E (mkArr (delta_trait E (bty_ops E b n)) a fixed) offs l w = Ok w' ->
  exists bs, w' = w ++ bs /\ forall mk rest, (forall j, exists x, mk j = Ok x) ->
    array_read_full (mkArr (delta_trait E (bty_ops E b n)) a fixed) offs mk (mkR (zlen w) (bs ++ rest)) = Ok (l, mkR (zlen w') rest).
Proof.
  intros b n fixed offs l w w' a HL H HW.
  destruct (H (fun _ => Ok VNone) ltac:(intros; eexists; reflexivity) w w' HW) as (bs & E1 & _).
  exists bs. split; [assumption|]. intros mk rest HM. destruct (H mk HM w w' HW) as (bs' & E2 & R).
  assert (bs' = bs) by (rewrite E1 in E2; apply app_inv_head in E2; congruence). subst bs'. apply R.
Qed.

Lemma builtin_payload : forall p i fd ps fs b n a len l c (w w' : writer) bs,
  f_ty fd = TB b ->
  (forall mk rest, (forall j, exists x, mk j = Ok x) ->
    array_read_full (mkArr (delta_trait E (bty_ops E b n)) a len) (offs_of fd) mk (mkR (zlen w) (bs ++ rest)) = Ok (l, mkR (zlen w') rest)) ->
  ev (fun g => forall fs' cr rest, agree i fs fs' -> PS p c cr -> exists cr',
      decode_payload E (im g) p (Some (mkArr (trait_of (f_ty fd) n (im g)) a len)) i fd ps fs' cr (mkR (zlen w) (bs ++ rest))
      = Ok (VArr l, cr', mkR (zlen w') rest) /\ PS p c cr').
Proof.
  intros p i fd ps fs b n a len l c w w' bs FT H. apply ev_true. intros g fs' cr rest AG SM. exists cr. split; [|assumption].
  cbn [decode_payload]. rewrite FT. cbn [trait_of]. specialize (H (fresh_item (im g) (TB b) ps fs') rest (fresh_builtin _ _ _ _)).
  unfold array_read_full in H. apply bind_ok in H. destruct H as [[len' r'] [H1 H2]]. rewrite H1. cbn [bind]. rewrite H2. reflexivity.
Qed.

Lemma rt_packed_objects : wf_schema sch -> forall f, rt_obj E sch f -> forall i k args ps fs offs l W I w w' len,
  Forall (local i) args -> (k < length sch)%nat -> consistent_items E sch true (TRef k args) ps fs l W -> check_items (TRef k args) 0 ps fs l = Ok tt ->
  announced_all sch k l I -> (forall q, max_delta_bits (vals q W) <= max_delta_bits (vals q I)) ->
  (match l with [] => Ok w | _ =>
      do c <- at_create (object_trait (im f k)) ; do c <- init_all (object_trait (im f k)) c l ;
      do (_, w2) <- write_packed_all (object_trait (im f k)) offs c l w ; Ok w2 end) = Ok w' ->
  exists bs, w' = w ++ bs /\ ev (fun g => forall fs' rest, agree i fs fs' ->
      array_read (mkArr (object_trait (im g k)) true len) offs (fresh_item (im g) (TRef k args) ps fs') (zlen l)
        (mkR (zlen w) (bs ++ rest)) = Ok (l, mkR (zlen w') rest)).
Proof.
  intros WF f RT i k args ps fs offs l W I w w' len LO HK CI CK AN MD HW. destruct l as [|v l].
  - apply ok_inj in HW. subst w'. exists []. split; [now rewrite app_nil_r|].
    destruct (create_total E sch WF k no_ctx HK) as (c0 & HC). apply (ev_impl _ _ HC). intros g Hg fs' rest AG.
    unfold array_read. cbn [a_packed a_trait object_trait at_create]. rewrite Hg. reflexivity.
  - apply bind_ok in HW. destruct HW as [c0 [HC HW]]. apply bind_ok in HW. destruct HW as [c1 [HN HW]].
    apply bind_ok in HW. destruct HW as [[c2 w2] [HW1 HW2]]. apply ok_inj in HW2. subst w2. cbn [object_trait at_create] in HC.
    destruct (packed_start E sch WF f k (v :: l) I c0 c1 W AN HC HN MD) as [TP SM].
    destruct (rt_items_packed E sch WF f RT i k args ps fs offs (v :: l) W 0 c1 w c2 w' [] LO CI CK) as (bs & E1 & _ & RD).
    + rewrite app_nil_r. assumption.
    + assumption.
    + exists bs. split; [assumption|]. apply (ev_impl2 _ _ _ RD (create_at E sch f k no_ctx c0 HC)). clear RD. intros g RD Hg fs' rest AG.
      unfold array_read. cbn [a_packed a_trait]. change (at_create (object_trait (im g k))) with (oi_create (im g k) no_ctx). rewrite Hg. cbn [bind].
      rewrite to_nat_zlen. destruct (RD fs' c0 rest AG SM) as (cr' & ->). reflexivity.
Qed.

Lemma rt_payload : wf_schema sch -> forall f, rt_obj E sch f -> forall p force i fd ps fs v W c w c' w' R arr,
  field_ok i fd -> field_ref fd -> consistent_payload E sch p force i fd ps fs v W -> PI p c (W ++ R) ->
  instantiate_array E (im f) fd force ps fs = Ok arr ->
  encode_payload E (im f) p arr i fd ps fs v c w = Ok (c', w') ->
  exists bs, w' = w ++ bs /\ PI p c' R /\
    ev (fun g => forall fs' cr rest, agree i fs fs' -> PS p c cr -> exists arr' cr',
      instantiate_array E (im g) fd force ps fs' = Ok arr' /\
      decode_payload E (im g) p arr' i fd ps fs' cr (mkR (zlen w) (bs ++ rest)) = Ok (v, cr', mkR (zlen w') rest) /\ PS p c' cr').
Proof.
  intros WF f RT p force i fd ps fs v W c w c' w' R arr FO FR C HI HA HW.
  destruct (inst_inv _ _ _ _ _ _ HA) as [(FA & -> & IN)|(a & n & len & FA & -> & NB & LN & IN)].
  - inversion C as [p0 force0 i0 f0 ps0 fs0 v0 W0 _ CI|? ? ? ? ? ? ? ? FA'|? ? ? ? ? ? ? ? ? ? FA'|? ? ? ? ? ? ? ? ? ? ? FA'|? ? ? ? ? ? ? ? ? ? ? ? FA']; subst; try congruence.
    cbn [encode_payload] in HW. apply bind_ok in HW. destruct HW as [[] [CK HW]].
    destruct (rt_item E sch WF f RT p (p && is_packable fd) i (f_ty fd) ps fs v W0 c w c' w' R) as (bs & E1 & P1 & RD); try assumption.
    + intros H. apply andb_true_iff in H. tauto.
    + intros -> H. cbn [andb] in H. destruct (f_ty fd) as [b|m args] eqn:FT; [eauto|]. exfalso.
      unfold field_ref in FR. rewrite FT in FR. unfold is_packable in H. destruct FR as [_ OF]. rewrite OF, FA, FT in H. discriminate.
    + destruct FO as (_ & _ & TO & _). exact TO.
    + exists bs. split; [assumption|]. split; [assumption|]. apply (ev_impl _ _ RD). clear RD. intros g RD fs' cr rest AG SM.
      destruct (RD fs' cr rest AG SM) as (cr' & D1 & S1). exists None, cr'. split; [apply IN|]. split; [|assumption].
      cbn [decode_payload]. exact D1.
  - destruct v as [| | | | | | |l|]; try (cbn in HW; discriminate). cbn [encode_payload a_fixed] in HW.
    apply bind_ok in HW. destruct HW as [[] [CK HW]]. apply bind_ok in HW. destruct HW as [[] [CF HW]].
    apply bind_ok in HW. destruct HW as [w2 [HW1 HW2]]. apply ok_pair_inj in HW2. destruct HW2 as [<- <-]. rename w2 into w'.
    assert (FIN : forall bs, ev (fun g => forall fs' cr rest, agree i fs fs' -> PS p c cr -> exists cr',
      decode_payload E (im g) p (Some (mkArr (trait_of (f_ty fd) n (im g)) ((as_packed a || force) && is_packable fd) len)) i fd ps fs' cr (mkR (zlen w) (bs ++ rest))
      = Ok (VArr l, cr', mkR (zlen w') rest) /\ PS p c cr') ->
      ev (fun g => forall fs' cr rest, agree i fs fs' -> PS p c cr -> exists arr' cr',
        instantiate_array E (im g) fd force ps fs' = Ok arr' /\
        decode_payload E (im g) p arr' i fd ps fs' cr (mkR (zlen w) (bs ++ rest)) = Ok (VArr l, cr', mkR (zlen w') rest) /\ PS p c cr')).
    { intros bs H. apply (ev_impl _ _ H). intros g Hg fs' cr rest AG SM. destruct (Hg fs' cr rest AG SM) as (cr' & D1 & S1).
      eexists. exists cr'. split; [apply (IN _ i fs' FO AG)|]. split; assumption. }
    assert (CT : match f_ty fd with TRef k (_ :: _) => exists c, ev (fun g => oi_create (im g k) no_ctx = Ok c) | _ => True end).
    { unfold field_ref in FR. destruct (f_ty fd) as [|k [|]]; auto. apply create_total; [assumption|apply FR]. }
    assert (LOK : forall (len0 : as_len a = None -> zlen l < 2 ^ 31), length_ok len (zlen l)).
    { intros L0. refine (length_ok_of_write E _ (offs_of fd) l w w' _ HW1). cbn [a_fixed]. intros X. apply L0, LN. assumption. }
    inversion C as [? ? ? ? ? ? ? ? FA'|p0 force0 i0 f0 ps0 fs0 a0 l0 FA' PK L0 CI|p0 force0 i0 f0 ps0 fs0 a0 b n0 l0 FA' PK L0 FT NB0 V LS
      |p0 force0 i0 f0 ps0 fs0 a0 n0 args l0 W0 FA' PK L0 FT PL CI|p0 force0 i0 f0 ps0 fs0 a0 n0 args l0 W0 I0 FA' PK L0 FT CI AN MD]; subst; try congruence;
    assert (a0 = a) by congruence; subst a0; specialize (LOK L0); rewrite PK in *.
    + (* unpacked *)
      destruct (f_ty fd) as [b|k args] eqn:FT.
      * assert (V : Forall (bty_val b n) l).
        { clear -CI NB. specialize (NB b eq_refl). remember (TB b) as t. remember (@nil event) as W. clear HeqW.
          induction CI as [|p1 t1 ps1 fs1 v1 l1 W1 W2 C1 C2 IH]; constructor.
          - inversion C1 as [p2 b2 n2 ps2 fs2 v2 N2 V2|]; subst; congruence.
          - apply IH; assumption. }
        destruct (array_rt_inner b n len (offs_of fd) l w w' false LOK (fun mk HM => builtin_array_unpacked E b n len (offs_of fd) mk l LOK V HM) HW1) as (bs & E1 & RD).
        exists bs. split; [assumption|]. split; [exact HI|]. apply FIN. rewrite <- FT. rewrite <- FT in IN. eapply builtin_payload; [exact FT|exact RD].
      * destruct (rt_array_payload p i fd ps fs n false len l c w w' f) as (bs & E1 & RD); try assumption.
        { rewrite FT. exact HW1. }
        { intros bs0 w1 E0 HB. rewrite FT in HB |- *. cbn [trait_of] in HB |- *.
          destruct (rt_items_unpacked E sch WF f RT i k args ps fs (offs_of fd) l [] 0 w1 w') as (bs & E1 & RD); try assumption.
          - destruct FO as (_ & _ & TO & _). rewrite FT in TO. exact TO.
          - destruct l; exact HB.
          - exists bs. split; [assumption|]. apply (ev_impl _ _ RD). clear RD. intros g RD fs' rest AG.
            unfold array_read. cbn [a_packed a_trait]. rewrite to_nat_zlen. apply RD. assumption. }
        { rewrite FT. exact CT. }
        exists bs. split; [assumption|]. split; [exact HI|]. apply FIN. rewrite <- FT. exact RD.
    + (* packed builtin *)
      assert (n0 = n) by (specialize (NB b FT); congruence). subst n0.
      rewrite FT in HW1. cbn [trait_of] in HW1.
      destruct (array_rt_inner b n len (offs_of fd) l w w' true LOK (fun mk HM => builtin_array_packed E b n len (offs_of fd) mk l LOK V HM LS) HW1) as (bs & E1 & RD).
      exists bs. split; [assumption|]. split; [exact HI|]. apply FIN. eapply builtin_payload; [exact FT|exact RD].
    + (* packed, announced exactly *)
      destruct (rt_array_payload p i fd ps fs n true len l c w w' f LOK HW1) as (bs & E1 & RD); try assumption.
      { intros bs0 w1 E0 HB. rewrite FT in HB |- *. cbn [trait_of] in HB |- *. rewrite FT in CI, CK.
        eapply rt_packed_objects with (W := W0) (I := W0); try eassumption.
        - destruct FO as (_ & _ & TO & _). rewrite FT in TO. exact TO.
        - unfold field_ref in FR. rewrite FT in FR. apply FR.
        - eapply plain_announced_all; eassumption.
        - intros q. lia. }
      exists bs. split; [assumption|]. split; [exact HI|]. apply FIN. exact RD.
    + destruct (rt_array_payload p i fd ps fs n true len l c w w' f LOK HW1) as (bs & E1 & RD); try assumption.
      { intros bs0 w1 E0 HB. rewrite FT in HB |- *. cbn [trait_of] in HB |- *. rewrite FT in CI, CK.
        eapply rt_packed_objects with (W := W0) (I := I0); try eassumption.
        - destruct FO as (_ & _ & TO & _). rewrite FT in TO. exact TO.
        - unfold field_ref in FR. rewrite FT in FR. apply FR. }
      exists bs. split; [assumption|]. split; [exact HI|]. apply FIN. exact RD.
Qed.
End Sch.
