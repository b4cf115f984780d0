(** Proofs about devices. *)
From Coq Require Import ZArith List Bool Lia Arith.
From Verif Require Import M_Base M_Bits M_Var M_Prim M_Array M_Gen S_Base S_Var S_Array S_Prim S_Gen X_Gen M_Io S_Io P_Base.
From Verif Require P_Ext2 P_Gen7.
Import ListNotations.
Open Scope Z_scope.

Lemma write_all_prefix : forall rs buf got out got', write_all rs buf got = (out, got') ->
  exists taken rest, buf = taken ++ rest /\ got' = got ++ taken /\ (out = Done <-> rest = []).
Proof.
  induction rs as [|r rs IH]; intros [|b buf] got out got' H; cbn [write_all] in H.
  - injection H as <- <-. exists [], []. split; [reflexivity|]. split; [now rewrite app_nil_r|]. split; auto.
  - injection H as <- <-. exists [], (b :: buf). split; [reflexivity|]. split; [now rewrite app_nil_r|]. split; discriminate.
  - injection H as <- <-. exists [], []. split; [reflexivity|]. split; [now rewrite app_nil_r|]. split; auto.
  - destruct r as [[|n]| |].
    + injection H as <- <-. exists [], (b :: buf). split; [reflexivity|]. split; [now rewrite app_nil_r|]. split; discriminate.
    + destruct (S n <=? length (b :: buf))%nat eqn:L.
      * destruct (IH _ _ _ _ H) as (t & r & E & G & D).
        exists (firstn (S n) (b :: buf) ++ t), r. split; [|split; [|exact D]].
        -- rewrite <- app_assoc, <- E. symmetry. apply firstn_skipn.
        -- rewrite G. now rewrite app_assoc.
      * injection H as <- <-. exists [], (b :: buf). split; [reflexivity|]. split; [now rewrite app_nil_r|]. split; discriminate.
    + apply IH. exact H.
    + injection H as <- <-. exists [], (b :: buf). split; [reflexivity|]. split; [now rewrite app_nil_r|]. split; discriminate.
Qed.

Theorem device_prefix : forall o rs v out got, to_device o rs v = (out, got) ->
  match to_bytes o v with
  | Ok data => prefix got data /\ (out = Done <-> got = data)
  | Err e => out = Earlier (Err e) /\ got = []
  | Panic => out = Earlier Panic /\ got = []
  | NoFuel => out = Earlier NoFuel /\ got = []
  end.
Proof.
  intros o rs v out got H. unfold to_device in H. unfold to_bytes.
  destruct (oi_write o false no_ctx v []) as [[c w]|e| |]; cbn [bind]; try (injection H as <- <-; auto).
  destruct (write_all_prefix _ _ _ _ _ H) as (t & r & E & G & D). cbn [app] in G. subst got. split; [exists r; exact E|].
  rewrite D, E. split; intros X.
  - subst r. now rewrite app_nil_r.
  - apply (f_equal (@length Z)) in X. rewrite app_length in X. destruct r; [reflexivity|cbn in X; lia].
Qed.

(** A device that takes bytes and does not fail gets all of them. *)
Lemma write_all_done : forall rs buf got, willing rs -> (length buf <= takes rs)%nat ->
  fst (write_all rs buf got) <> Lied -> write_all rs buf got = (Done, got ++ buf).
Proof.
  unfold takes. induction rs as [|r rs IH]; intros [|b buf] got [F O] L X; cbn [write_all] in X |- *;
    try (rewrite app_nil_r; reflexivity).
  - cbn in L. lia.
  - assert (Wr : willing rs) by (split; intros I; [apply F|apply O]; now right).
    destruct r as [[|n]| |].
    + exfalso. apply O. now left.
    + destruct (S n <=? length (b :: buf))%nat eqn:Le; [|now contradiction X].
      apply Nat.leb_le in Le. rewrite IH; [|exact Wr| |exact X].
      * rewrite <- app_assoc, firstn_skipn. reflexivity.
      * rewrite skipn_length. cbn [length filter] in L, Le |- *. lia.
    + apply IH; [exact Wr|exact L|exact X].
    + exfalso. apply F. now left.
Qed.
Theorem device_done : forall o rs v data out got, to_bytes o v = Ok data ->
  willing rs -> (length data <= takes rs)%nat -> to_device o rs v = (out, got) -> out <> Lied -> out = Done.
Proof.
  intros o rs v data out got B Wr L H X. unfold to_device in H. unfold to_bytes in B.
  destruct (oi_write o false no_ctx v []) as [[c w]|e| |]; cbn [bind] in B; try discriminate.
  injection B as B. rewrite B in H.
  pose proof (write_all_done rs data [] Wr L) as K. rewrite H in K. specialize (K X). now injection K.
Qed.

(** An answer that ends the call ends it there. *)
Lemma write_all_failed : forall rs1 rs2 r buf got got', r = Failed \/ r = Some_bytes 0 ->
  write_all rs1 buf got = (Cut, got') -> write_all (rs1 ++ r :: rs2) buf got = (Refused, got').
Proof.
  induction rs1 as [|x rs1 IH]; intros rs2 r [|b buf] got got' R H; cbn [write_all app] in H |- *; try discriminate.
  - injection H as <-. destruct R as [-> | ->]; reflexivity.
  - destruct x as [[|n]| |]; try discriminate.
    + destruct (S n <=? length (b :: buf))%nat; [|discriminate]. now apply IH.
    + now apply IH.
Qed.
Theorem device_failed : forall o rs1 r rs2 v got, r = Failed \/ r = Some_bytes 0 ->
  to_device o rs1 v = (Cut, got) -> to_device o (rs1 ++ r :: rs2) v = (Refused, got).
Proof.
  intros o rs1 r rs2 v got R H. unfold to_device in H |- *.
  destruct (oi_write o false no_ctx v []) as [[c w]|e| |]; try discriminate. now apply write_all_failed.
Qed.

Theorem torn_unreadable : forall E sch, wf_schema sch -> forall f n v data rs out got, top_value E sch n v ->
  to_bytes (impl_at E sch f n) v = Ok data -> to_device (impl_at E sch f n) rs v = (out, got) ->
  (out = Done -> exists g0, forall g, (g0 <= g)%nat -> forall tail, from_bytes (impl_at E sch g n) (got ++ tail) = Ok v)
  /\ (out <> Done -> forall g x, from_bytes (impl_at E sch g n) got <> Ok x).
Proof.
  intros E sch W f n v data rs out got T B H. pose proof (device_prefix _ _ _ _ _ H) as P. rewrite B in P.
  destruct P as [(r & P) D]. split.
  - intros X. apply D in X. subst got. exact (P_Gen7.bytes_roundtrip E sch W f n v data T B).
  - intros N g x X. destruct r as [|b t]; [apply N, D; rewrite P; now rewrite app_nil_r|].
    subst data. exact (P_Ext2.bytes_truncated E sch W f n v got b t T B g x X).
Qed.

(** ** Reading *)
Lemma read_prefix : forall rs left buf d, read_to_end rs left buf = Some d -> exists t, prefix t left /\ d = buf ++ t.
Proof.
  induction rs as [|r rs IH]; intros left buf d H; [discriminate|]. cbn [read_to_end] in H. destruct r as [n| |].
  - destruct (firstn n left) as [|b l] eqn:F.
    + injection H as <-. exists []. rewrite app_nil_r. split; [exists left; reflexivity|reflexivity].
    + destruct (IH _ _ _ H) as (t & (r & P) & ->). exists ((b :: l) ++ t). rewrite app_assoc. split; [|reflexivity].
      exists r. rewrite <- app_assoc, <- P, <- F. symmetry. apply firstn_skipn.
  - exact (IH _ _ _ H).
  - discriminate.
Qed.
Lemma read_honest : forall rs left buf d, honest rs (length left) -> read_to_end rs left buf = Some d -> d = buf ++ left.
Proof.
  induction rs as [|r rs IH]; intros left buf d Hh H; [discriminate|]. cbn [read_to_end honest] in H, Hh. destruct r as [n| |].
  - destruct Hh as [Hn Hh]. destruct (firstn n left) as [|b l] eqn:F.
    + injection H as <-. destruct left as [|x left]; [now rewrite app_nil_r|].
      destruct n; [exfalso; apply Hn; cbn; lia|discriminate].
    + rewrite <- skipn_length in Hh. rewrite (IH _ _ _ Hh H), <- app_assoc, <- F. f_equal. apply firstn_skipn.
  - exact (IH _ _ _ Hh H).
  - discriminate.
Qed.
Theorem device_read : forall o rs data x, from_device o rs data = Some x ->
  exists d, prefix d data /\ x = from_bytes o d /\ (honest rs (length data) -> d = data).
Proof.
  intros o rs data x H. unfold from_device in H. destruct (read_to_end rs data []) as [d|] eqn:R; [|discriminate].
  injection H as <-. destruct (read_prefix _ _ _ _ R) as (t & P & E). cbn [app] in E. subst d.
  exists t. split; [exact P|]. split; [reflexivity|]. intros Hh. exact (read_honest _ _ _ _ Hh R).
Qed.

Lemma read_done : forall rs left buf, ~ In Failed rs -> honest rs (length left) -> (length left < takes rs)%nat ->
  read_to_end rs left buf = Some (buf ++ left).
Proof.
  unfold takes. induction rs as [|r rs IH]; intros left buf F Hh L; [cbn in L; lia|].
  assert (F' : ~ In Failed rs) by (intros I; apply F; now right).
  cbn [read_to_end honest filter] in Hh, L |- *. destruct r as [n| |].
  - destruct Hh as [Hn Hh]. destruct (firstn n left) as [|b l] eqn:K.
    + destruct left as [|x left]; [now rewrite app_nil_r|]. destruct n; [exfalso; apply Hn; cbn; lia|discriminate].
    + rewrite IH; [|exact F'|now rewrite skipn_length|].
      * rewrite <- app_assoc, <- K, firstn_skipn. reflexivity.
      * rewrite skipn_length. cbn [length] in L.
        assert (n <> 0%nat) by (intros ->; discriminate). assert (length left <> 0%nat) by (destruct left; [destruct n; discriminate|cbn; lia]). lia.
  - now apply IH.
  - exfalso. apply F. now left.
Qed.
Theorem device_read_done : forall o rs data, ~ In Failed rs -> honest rs (length data) -> (length data < takes rs)%nat ->
  from_device o rs data = Some (from_bytes o data).
Proof. intros o rs data F Hh L. unfold from_device. now rewrite read_done. Qed.

Theorem pipe : forall E sch, wf_schema sch -> forall f n v rs out got, top_value E sch n v ->
  to_device (impl_at E sch f n) rs v = (out, got) -> (exists data, to_bytes (impl_at E sch f n) v = Ok data) ->
  forall g rs' x, from_device (impl_at E sch g n) rs' got = Some (Ok x) -> x = v /\ out = Done.
Proof.
  intros E sch W f n v rs out got T H (data & B) g rs' x R.
  destruct (device_read _ _ _ _ R) as (d & (r & P) & X & _). symmetry in X.
  pose proof (device_prefix _ _ _ _ _ H) as Q. rewrite B in Q. destruct Q as [(r' & Q) D].
  assert (K : data = d ++ (r ++ r')) by (rewrite Q, P; now rewrite app_assoc).
  destruct (r ++ r') as [|b t] eqn:RR.
  - apply app_eq_nil in RR as [-> ->]. rewrite app_nil_r in *. subst got data. split; [|now apply D].
    assert (Y : from_bytes (impl_at E sch g n) (d ++ []) = Ok v).
    { apply (P_Ext2.bytes_roundtrip_any E sch W f n v d T B). rewrite app_nil_r, X. discriminate. }
    rewrite app_nil_r, X in Y. now injection Y.
  - exfalso. rewrite K in B. exact (P_Ext2.bytes_truncated E sch W f n v d b t T B g x X).
Qed.

(** ** A file with an older message in it *)
Theorem overwriting : forall E sch, wf_schema sch -> forall f n v data rs got old, top_value E sch n v ->
  to_bytes (impl_at E sch f n) v = Ok data -> to_device (impl_at E sch f n) rs v = (Done, got) ->
  exists g0, forall g, (g0 <= g)%nat -> from_bytes (impl_at E sch g n) (over got old) = Ok v.
Proof.
  intros E sch W f n v data rs got old T B H.
  destruct (proj1 (torn_unreadable E sch W f n v data rs Done got T B H) eq_refl) as (g0 & G).
  exists g0. intros g L. apply G, L.
Qed.
