(** The example value of [X_Gen] in the wire format. *)
From Coq Require Import ZArith List Bool Lia ZifyBool.
From Verif Require Import M_Base M_Bits M_Var M_Prim M_Array M_Gen S_Base S_Var S_Array S_Prim S_Gen S_Wire X_Gen.
From Verif Require Import P_Base.
From Verif Require P_Wire3.
Import ListNotations.
Open Scope Z_scope.

Lemma wire_scalar' : forall sch dbg (p : bool) b n ps fs v bs ts,
  (p = true -> b <> BBytes /\ b <> BExtern) -> num_bits b ps fs = Ok n -> scalar_bits b n v bs ->
  ts = [if p then TDelta [] (u64_of v) bs else TBits bs] -> wire_item sch dbg p (TB b) ps fs v ts.
Proof. intros. subst ts. eapply wire_scalar; eassumption. Qed.

Ltac least k := exists k; split; [|reflexivity]; split; [lia|split; [vm_compute; reflexivity|
  intros j Hj; assert (j = 1 \/ j = 2 \/ j = 3 \/ j = 4) as HJ by lia;
  repeat (destruct HJ as [-> |HJ]; [first [exfalso; lia | vm_compute; discriminate]|]); subst j; first [exfalso; lia | vm_compute; discriminate]]].
Ltac vsize := split; [vm_compute; split; [discriminate|reflexivity]|least 1].
Ltac sbits := first
  [ eapply sb_uint; [reflexivity|cbn; tauto|lia|cbn; lia]
  | eapply sb_int; [reflexivity|cbn; tauto|lia|cbn; lia]
  | eapply (sb_vars VS32 _ _ 3); [vm_compute; split; discriminate|
      split; [vm_compute; split; discriminate|split; [vm_compute; reflexivity|
        intros j Hj; assert (j = 1 \/ j = 2) as [-> | ->] by lia; vm_compute; discriminate]]]
  | eapply sb_float32; lia
  | eapply sb_string; [utf8|vsize]
  | eapply sb_bytes; [repeat constructor; unfold is_byte; lia|reflexivity|vsize] ].
Ltac lentoks := cbn -[varsize_bits]; first [ eexists; split; [vsize|reflexivity] | split; [eexists; split; reflexivity|reflexivity] ].
Ltac evs := cbn; first [exact I | split; [first [exact I | eexists; reflexivity] | first [exact I | eexists; reflexivity]]].
Ltac match_tac := cbn; first [exact I | split; [eexists; split; reflexivity|exact I]].
Ltac nts := first [apply notice_items_nil | eapply notice_items_cons; [nitem|nts]]
with nitem := first
  [ eapply notice_scalar; [discriminate|discriminate|reflexivity|sbits]
  | eapply notice_ref; nobj ]
with nobj := first
  [ eapply notice_struct; [reflexivity|nfields]
  | eapply notice_enum; [reflexivity|sbits]
  | eapply notice_bitmask; [reflexivity|sbits] ]
with nfields := first [apply notice_nil | eapply notice_cons; [nfield|nfields]]
with nfield := first
  [ eapply notice_none; [reflexivity|reflexivity|reflexivity]
  | eapply notice_value; [reflexivity|reflexivity|reflexivity|reflexivity|nitem] ].
(** The condition on packed arrays needs to be looked at for finitely many paths. *)
Definition paths_ok (dbg : bool) (A : notices) (ts : list tok) : bool :=
  forallb (fun q => negb (packs_list (at_path A q)) ||
    ((max_delta_bits (deltas q ts) <=? width_list (at_path A q)) && negb (dbg && crosses (deltas q ts)))) (map fst A).
Lemma paths_enough : forall dbg A ts, paths_ok dbg A ts = true -> forall q, packs_list (at_path A q) = true ->
  max_delta_bits (deltas q ts) <= width_list (at_path A q) /\ (dbg = true -> crosses (deltas q ts) = false).
Proof.
  intros dbg A ts H q P.
  assert (I : at_path A q = [] \/ In q (map fst A)).
  { unfold at_path. clear. induction A as [|[p x] A IH]; [left; reflexivity|]. cbn [filter fst map].
    destruct (path_eqb p q) eqn:PQ; [right; left; apply P_Wire3.path_eqb_eq; exact PQ|]. destruct IH as [IH|IH]; [left; exact IH|right; right; exact IH]. }
  destruct I as [I|I]; [rewrite I in P; discriminate|].
  unfold paths_ok in H. rewrite forallb_forall in H. specialize (H q I). rewrite P in H. cbn [negb orb] in H.
  apply andb_true_iff in H. destruct H as [H1 H2]. split; [lia|]. intros ->. destruct (crosses (deltas q ts)); [discriminate|reflexivity].
Qed.
Ltac wobj := first
  [ eapply wire_struct; [reflexivity|wfields]
  | eapply wire_choice; [reflexivity|reflexivity|reflexivity|wfield]
  | eapply wire_union; [reflexivity|vsize|reflexivity|wfield]
  | eapply wire_enum; [reflexivity|sbits]
  | eapply wire_bitmask; [reflexivity|sbits] ]
with wfields := first [apply wire_nil | eapply wire_cons; [wfield|wfields]]
with wfield := first
  [ eapply wire_off; [evs|reflexivity|reflexivity]
  | eapply wire_none; [evs|reflexivity|reflexivity|reflexivity]
  | eapply wire_value; [evs|reflexivity|reflexivity|reflexivity|wpayload] ]
with wpayload := first
  [ eapply wire_single; [reflexivity|match_tac|witem]
  | eapply wire_packed; [reflexivity|reflexivity|lentoks|nts|witems|apply paths_enough; vm_compute; reflexivity]
  | eapply wire_array; [reflexivity|reflexivity|lentoks|witems] ]
with witem := first
  [ eapply wire_scalar'; [cbn; intros; first [discriminate | split; discriminate] |vm_compute; reflexivity|sbits|cbn; reflexivity]
  | eapply wire_ref; wobj ]
with witems := first [apply wire_items_nil | eapply wire_items_cons; [match_tac|witem|witems]].
Lemma x_main_wire : forall dbg, exists ts, wire xs dbg false 7 x_main ts /\ close_bits (bits_at 0 ts) = x_main_bytes /\
  In (TSeq [([], (1, 32)); ([], (18446744073709551615, 32)); ([], (1000, 32)); ([], (0, 32)); ([], (0, 32))]
           [TDelta [] 1 (bits_of 32 1); TDelta [] 18446744073709551615 (bits_of 32 (-1)); TDelta [] 1000 (bits_of 32 1000);
            TDelta [] 0 (bits_of 32 0); TDelta [] 0 (bits_of 32 0)]) ts.
Proof.
  intros [].
  - eexists. split; [wobj|]. split; [vm_compute; reflexivity|]. vm_compute. tauto.
  - eexists. split; [wobj|]. split; [vm_compute; reflexivity|]. vm_compute. tauto.
Qed.
