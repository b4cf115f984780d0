(** How many bits values take (C88). *)
From Coq Require Import ZArith List Bool Lia.
From Verif Require Import M_Base M_Bits M_Var M_Prim M_Array M_Gen S_Base S_Var S_Prim S_Array S_Read S_Gen S_Again S_Range.
From Verif Require Import P_Base P_Bits P_Var P_Var2 P_Prim P_Read P_Ext.
Import ListNotations.
Open Scope Z_scope.

(** Bits taken from the reader. *)
Definition used (r r' : reader) : Z := zlen (r_rest r) - zlen (r_rest r').
Lemma kind_used k b r v r' : kind_ok k -> kind_read k b r = Ok (v, r') ->
  0 <= used r r' /\ match kind_bits k with Some n => used r r' = n | None => 1 <= used r r' end.
Proof.
  intros K H. pose proof (scalar_total k b r K) as T. rewrite H in T. destruct T as (_ & (bs & A & B) & P).
  unfold used. rewrite A, zlen_app. pose proof (zlen_nonneg _ bs). destruct (kind_bits k); lia.
Qed.
Lemma align_used a r r' : align_reader a r = Ok r' -> 0 <= used r r'.
Proof.
  unfold align_reader, br_skip. intros H. destruct (Z.eqb_spec a 0); [discriminate|]. destruct (_ <? _); [discriminate|]. apply ok_inj in H. subst r'.
  unfold used, br_advance, zlen. cbn [r_rest]. rewrite skipn_length. lia.
Qed.
Lemma loc_used A (rd : reader -> res (A * reader)) r a r' : loc rd -> rd r = Ok (a, r') -> 0 <= used r r'.
Proof. intros L H. destruct r as [q B]. apply L in H. destruct H as (bs & -> & _). unfold used. cbn [r_rest]. rewrite zlen_app. pose proof (zlen_nonneg _ bs). lia. Qed.

Lemma vu_used t r v r' : vu_read t r = Ok (v, r') -> 8 <= used r r' <= 8 * vu_bytes t.
Proof.
  intros H. destruct (vu_decode t r) as [(k & m & rest & K & M & R & X)|[_ X]]; rewrite H in X; [|discriminate]. apply ok_pair_inj in X as [_ ->].
  unfold used. cbn [r_rest]. rewrite R, zlen_app, vu_format_len by (pose proof (vu_bytes_range t); lia). lia.
Qed.
Lemma vs_used t b r v r' : vs_read t b r = Ok (v, r') -> 8 <= used r r' <= 8 * vs_bytes t.
Proof.
  intros H. destruct (vs_decode t b r) as [(k & s & m & rest & K & M & R & X)|[_ X]]; rewrite H in X; [|discriminate]. apply ok_pair_inj in X as [_ ->].
  unfold used. cbn [r_rest]. rewrite R, zlen_app, vs_format_len by (pose proof (vs_bytes_range t); lia). lia.
Qed.
Lemma varsize_bits r v r' : read_varsize r = Ok (v, r') -> in_range (builtin_range (BVarU VSIZE)) (used r r').
Proof. intros H. exact (vu_used VSIZE r v r' H). Qed.

Lemma kind_exact k b r v r' n : kind_ok k -> kind_bits k = Some n -> kind_read k b r = Ok (v, r') -> in_range (exactly n) (used r r').
Proof. intros K N H. apply (kind_used k b r v r' K) in H as [_ U]. rewrite N in U. unfold in_range, exactly, up_to. cbn. lia. Qed.
Lemma bool_bits r v r' : br_bool r = Ok (v, r') -> used r r' = 1.
Proof.
  intros H. destruct (kind_used KBool Debug r (if v then 1 else 0) r' Logic.I) as [_ U]; [|exact U].
  cbn [kind_read]. rewrite H. reflexivity.
Qed.
Lemma long_bits (A : Type) (rd : reader -> Z -> res (A * reader)) r v r' : (forall n, loc (fun r => rd r n)) -> (do (n, r) <- read_varsize r ; rd r n) = Ok (v, r') ->
  in_range (mkRange 8 None) (used r r').
Proof.
  intros L H. apply bind_ok in H as ([n r1] & V & H). apply vu_used with (t := VSIZE) in V. apply (loc_used A (fun r => rd r n)) in H; [|apply L].
  unfold in_range, used in *. cbn. lia.
Qed.

(** [BDyn] with its width; other types as they are. *)
Definition wide (b : bty) (n : Z) : range := match b with BDyn _ _ => exactly n | _ => builtin_range b end.
Lemma in_exactly n k : in_range (exactly n) k <-> k = n.
Proof. unfold in_range, exactly, up_to. cbn. lia. Qed.

Lemma scalar_bits E b n r v r' : width_ok b -> 0 <= n -> scalar_read E b n r = Ok (v, r') ->
  in_range (wide b n) (used r r') /\ match b with BDyn _ _ => n <= 64 | _ => True end.
Proof.
  intros W N H. destruct b as [[] w|[] m|[] e|t|t| | | | | | |]; cbn [scalar_read width_ok wide builtin_range] in *; apply bind_ok in H as ([z r1] & R & H); apply ok_pair_inj in H as [<- <-];
    (split; [|try exact Logic.I]).
  - eapply (kind_exact (KSInt w) Debug); [exact W|reflexivity|exact R].
  - eapply (kind_exact (KUInt w) Debug); [exact W|reflexivity|exact R].
  - eapply (kind_exact (KSBits m) Debug); [cbn; lia|reflexivity|exact R].
  - eapply (kind_exact (KBits m) Debug); [cbn; lia|reflexivity|exact R].
  - assert (n <= 64) by (unfold read_signed_bits in R; destruct (Z.ltb_spec 64 n); [discriminate|lia]).
    eapply (kind_exact (KSBits n) Debug); [cbn; lia|reflexivity|exact R].
  - unfold read_signed_bits in R; destruct (Z.ltb_spec 64 n); [discriminate|lia].
  - assert (n <= 64) by (unfold read_unsigned_bits in R; destruct (Z.ltb_spec 64 n); [discriminate|lia]).
    eapply (kind_exact (KBits n) Debug); [cbn; lia|reflexivity|exact R].
  - unfold read_unsigned_bits in R; destruct (Z.ltb_spec 64 n); [discriminate|lia].
  - exact (vu_used _ _ _ _ R).
  - exact (vs_used _ _ _ _ _ R).
  - apply in_exactly. exact (bool_bits _ _ _ R).
  - eapply (kind_exact KFloat16 Debug); [exact Logic.I|reflexivity|exact R].
  - eapply (kind_exact KFloat32 Debug); [exact Logic.I|reflexivity|exact R].
  - eapply (kind_exact KFloat64 Debug); [exact Logic.I|reflexivity|exact R].
  - destruct (string_read_sound r z r1 R) as (_ & _ & r2 & V & X & _). apply (vu_used VSIZE) in V. unfold used in *. rewrite X, zlen_app in V.
    split; [cbn; pose proof (zlen_nonneg _ (bits_of_bytes z)); lia|exact Logic.I].
  - split; [|exact Logic.I]. pose proof (extern_decode r) as D. destruct (read_varsize r) as [[k r2]|e| |] eqn:V; try congruence. apply (vu_used VSIZE) in V.
    destruct D as [[_ X]|[[_ X]|(L & blob & _ & B & X)]]; try congruence. rewrite R in X. apply ok_pair_inj in X as [-> ->].
    unfold used in *. cbn [r_rest least]. unfold zlen in *. rewrite skipn_length. lia.
  - split; [|exact Logic.I]. unfold read_bytes_type in R. apply bind_ok in R as ([k r2] & V & R). apply (vu_used VSIZE) in V.
    apply bind_ok in R as ([bs r3] & B & R). apply ok_pair_inj in R as [_ <-]. apply (loc_used _ _ _ _ _ (read_bytes_loc k)) in B.
    unfold used in *. cbn [least]. lia.
Qed.

Lemma elem_bits E b n r v r' : width_ok b -> 0 <= n -> eo_read (bty_ops E b n) r = Ok (v, r') ->
  in_range (wide b n) (used r r') /\ match b with BDyn _ _ => n <= 64 | _ => True end.
Proof.
  intros W N H. destruct b as [[] w|[] m|[] e|t|t| | | | | | |]; try exact (scalar_bits E _ n r v r' W N H);
    cbn [bty_ops lift eo_read ubits_ops sbits_ops width_ok wide builtin_range] in *;
    apply bind_ok in H as ([y r1] & H1 & H); apply ok_pair_inj in H as [<- <-]; apply bind_ok in H1 as ([z r2] & R & H); apply ok_pair_inj in H as [<- <-];
    (split; [|try exact Logic.I]).
  - eapply (kind_exact (KSBits w) Debug); [cbn in *; lia|reflexivity|exact R].
  - eapply (kind_exact (KBits w) Debug); [cbn in *; lia|reflexivity|exact R].
  - eapply (kind_exact (KSBits m) Debug); [cbn in *; lia|reflexivity|exact R].
  - eapply (kind_exact (KBits m) Debug); [cbn in *; lia|reflexivity|exact R].
  - assert (n <= 64) by (unfold read_signed_bits in R; destruct (Z.ltb_spec 64 n); [discriminate|lia]).
    eapply (kind_exact (KSBits n) Debug); [cbn in *; lia|reflexivity|exact R].
  - unfold read_signed_bits in R; destruct (Z.ltb_spec 64 n); [discriminate|lia].
  - assert (n <= 64) by (unfold read_unsigned_bits in R; destruct (Z.ltb_spec 64 n); [discriminate|lia]).
    eapply (kind_exact (KBits n) Debug); [cbn in *; lia|reflexivity|exact R].
  - unfold read_unsigned_bits in R; destruct (Z.ltb_spec 64 n); [discriminate|lia].
Qed.

Lemma num_bits_byte b ps fs w : num_bits b ps fs = Ok w -> 0 <= w.
Proof.
  intros H. destruct b; cbn [num_bits] in H; try (apply ok_inj in H; lia).
  unfold rmap in H. apply bind_ok in H as (x & X & H). apply ok_inj in H. subst w. unfold wrap_u. apply Z.mod_pos_bound. lia.
Qed.

(** A builtin type that spans [q], read with the width it has. *)
Lemma builtin_spans sch b q ps fs w k : spans sch (TB b) q -> num_bits b ps fs = Ok w -> 0 <= k ->
  (width_ok b -> in_range (wide b w) k /\ match b with BDyn _ _ => w <= 64 | _ => True end) -> in_range q k.
Proof.
  intros S NB K H. inversion S; subst.
  - split; [exact K|exact Logic.I].
  - destruct (H ltac:(assumption)) as [A B]. pose proof (num_bits_byte _ _ _ _ NB). destruct b; try exact A. apply in_exactly in A. subst k. cbn. unfold in_range. cbn. lia.
  - destruct (H Logic.I) as [A B]. cbn [wide] in A. apply in_exactly in A. subst k. cbn [num_bits] in NB. unfold rmap in NB. apply bind_ok in NB as (x0 & X & NB). apply ok_inj in NB. subst w.
    match goal with Q : expr_between _ _ _ |- _ => specialize (Q _ _ _ X) end. unfold wrap_u. rewrite Z.mod_small by lia. unfold in_range. cbn. lia.
Qed.

Lemma align_bits a r r' : align_reader a r = Ok r' -> 0 <= used r r' <= Z.max 0 (a - 1).
Proof.
  intros H. split; [exact (align_used _ _ _ H)|]. unfold align_reader, br_skip in H. destruct (Z.eqb_spec a 0); [discriminate|]. destruct (Z.ltb_spec (br_remaining r) ((a - r_pos r mod a) mod a)) as [|L]; [discriminate|]. apply ok_inj in H. subst r'.
  unfold used, br_advance, br_remaining in *. cbn [r_rest]. unfold zlen in *. rewrite skipn_length.
  destruct (Z_lt_le_dec a 0) as [N|N].
  - pose proof (Z.mod_neg_bound (a - r_pos r mod a) a N). lia.
  - pose proof (Z.mod_pos_bound (a - r_pos r mod a) a ltac:(lia)). lia.
Qed.
Lemma field_align_bits f r r' : field_align_reader f r = Ok r' ->
  0 <= used r r' <= Z.max 0 (f_align f - 1) + match f_offset f with Offset => 7 | _ => 0 end.
Proof.
  unfold field_align_reader. intros H. apply bind_ok in H as (r1 & A & B).
  assert (0 <= used r r1 <= Z.max 0 (f_align f - 1)) by (destruct (Z.eqb_spec (f_align f) 0); [apply ok_inj in A; subst; unfold used; lia|exact (align_bits _ _ _ A)]).
  assert (0 <= used r1 r' <= match f_offset f with Offset => 7 | _ => 0 end).
  { destruct (f_offset f); try (apply ok_inj in B; subst; unfold used; lia). apply align_bits in B. lia. }
  unfold used in *. lia.
Qed.
Lemma elem_align_bits f r r' : align_elem_reader (offs_of f) r = Ok r' ->
  0 <= used r r' <= match f_offset f with IndexOffset => 7 | _ => 0 end.
Proof.
  unfold align_elem_reader, offs_of. destruct (f_offset f); intros H; try (apply ok_inj in H; subst; unfold used; lia). apply align_bits in H. lia.
Qed.

Section Level.
Context (E : env) (sch : schema) (m : nat -> obj_impl).
Hypothesis RD : forall n args q, spans sch (TRef n args) q -> forall c v0 r v c' r', oi_read (m n) false c v0 r = Ok (v, c', r') -> in_range q (used r r').
Hypothesis LOC : forall n p c v, loc (oi_read (m n) p c v).

Lemma type_bits q i t ps fs v0 c r v c' r' : spans sch t q -> decode_type E m false i t ps fs v0 c r = Ok (v, c', r') -> in_range q (used r r').
Proof using RD.
  intros S H. destruct t as [b|k args]; cbn [decode_type andb] in H.
  - apply bind_ok in H as (w & NB & H). apply bind_ok in H as ([y s1] & R1 & H). apply ok_inj in H. injection H as -> _ ->.
    eapply builtin_spans; [exact S|exact NB|exact (loc_used _ _ _ _ _ (scalar_read_loc E b w) R1)|].
    intros W. exact (scalar_bits E b w r v r' W (num_bits_byte _ _ _ _ NB) R1).
  - apply bind_ok in H as ([[y c1] s1] & R1 & H). apply ok_inj in H. injection H as -> _ ->. exact (RD _ _ _ S _ _ _ _ _ _ R1).
Qed.

Lemma elems_bits (A : array_trait value) f mk q k : forall i r L r',
  (forall v r y r', at_read A v r = Ok (y, r') -> in_range q (used r r') /\ 0 <= used r r') ->
  read_all A (offs_of f) mk k i r = Ok (L, r') ->
  Z.of_nat k * least q <= used r r' /\ 0 <= used r r'
  /\ match most q with Some x => used r r' <= Z.of_nat k * (match f_offset f with IndexOffset => 7 | _ => 0 end + Z.max 0 x) | None => True end.
Proof using.
  clear. intros i r L r' EL H. revert i r L r' H. induction k as [|k IH]; intros i r L r' H; cbn [read_all] in H.
  - apply ok_pair_inj in H as [<- <-]. unfold used. destruct (most q); lia.
  - apply bind_ok in H as (v & V & H). apply bind_ok in H as (s1 & A1 & H). apply bind_ok in H as ([y s2] & R & H). apply bind_ok in H as ([L1 s3] & RL & H).
    apply ok_pair_inj in H as [<- <-]. apply elem_align_bits in A1. destruct (EL _ _ _ _ R) as [[Y1 Y2] U]. apply IH in RL as (Z1 & Z2 & Z3). unfold used in *.
    destruct (most q); cbn [up_to] in *; repeat split; try lia; nia.
Qed.

Lemma payload_bits i f p ps fs arr c r v c' r' :
  (f_array f = None -> spans sch (f_ty f) p) ->
  (forall a, f_array f = Some a -> p = mkRange 0 None \/ (as_len a = None /\ p = mkRange 8 None)
     \/ exists e x y q, a = mkAS false (Some e) /\ spans sch (f_ty f) q /\ expr_between e x y /\ 0 <= x /\ y < 2 ^ 64 /\ p = elements_range f x y q) ->
  instantiate_array E m f false ps fs = Ok arr -> decode_payload E m false arr i f ps fs c r = Ok (v, c', r') -> in_range p (used r r') /\ 0 <= used r r'.
Proof using RD LOC.
  intros S1 S2 IN H. pose proof IN as IN0. unfold instantiate_array in IN. destruct (f_array f) as [a|] eqn:A.
  - specialize (S2 a eq_refl). clear S1. apply bind_ok in IN as (tr & TR & IN). apply bind_ok in IN as (len & LN & IN). apply ok_inj in IN. subst arr.
    pose proof (instantiate_loc E m LOC f false ps fs _ IN0) as TL. cbn [a_trait] in TL.
    cbn [decode_payload] in H. apply bind_ok in H as ([k s1] & RL & H). apply bind_ok in H as ([] & _ & H). apply bind_ok in H as ([L s2] & RA & H). apply ok_inj in H. injection H as <- _ <-.
    pose proof (loc_used _ _ _ _ _ (array_read_length_loc _ _) RL) as U1. pose proof (loc_used _ _ _ _ _ (array_read_loc _ (mkArr tr ((as_packed a || false) && is_packable f) len) _ _ _ TL) RA) as U2.
    destruct S2 as [->|[[N ->]|(e & x & y & q & -> & S & EB & X & Y & ->)]].
    + unfold in_range, used in *. cbn. lia.
    + rewrite N in LN. apply ok_inj in LN. subst len. unfold array_read_length in RL. cbn [a_fixed] in RL. apply varsize_bits in RL as [RL _]. unfold in_range, used in *. cbn in *. lia.
    + cbn [as_len as_packed orb andb] in *. unfold rmap in LN. apply bind_ok in LN as (k0 & EV & LN). apply ok_inj in LN. subst len. specialize (EB _ _ _ EV).
      unfold wrap_u in *. rewrite Z.mod_small in * by lia. unfold array_read_length in RL. cbn [a_fixed] in RL. apply ok_pair_inj in RL as [<- <-].
      unfold array_read in RA. cbn [a_packed a_trait] in RA. apply (elems_bits _ f _ q) in RA.
      * rewrite Z2Nat.id in RA by lia. destruct RA as (R1 & R2 & R3). split; [|exact R2]. split.
        { cbn [elements_range least]. clear - R1 R2 EB X. destruct (Z_le_gt_dec 0 (least q)) as [G|G]; [|nia]. pose proof (Z.mul_le_mono_nonneg_r x k0 (least q) G ltac:(lia)). lia. }
        cbn [elements_range most]. destruct (most q) as [t|]; cbn [up_to]; [|exact Logic.I]. clear - R3 EB X.
        match type of R3 with _ <= _ * ?a => pose proof (Z.mul_le_mono_nonneg_r k0 y a ltac:(destruct (f_offset f); lia) ltac:(lia)) end. lia.
      * clear RA. intros v0 r0 y0 r1 RE. pose proof (loc_used _ _ _ _ _ (tl_read _ TL v0) RE) as U. split; [|exact U]. destruct (f_ty f) as [b|k1 args].
        -- apply bind_ok in TR as (w & NB & TR). apply ok_inj in TR. subst tr. cbn [delta_trait at_read] in RE.
           eapply builtin_spans; [exact S|exact NB|exact U|]. intros W. exact (elem_bits E b w r0 y0 r1 W (num_bits_byte _ _ _ _ NB) RE).
        -- apply ok_inj in TR. subst tr. cbn [object_trait at_read] in RE. apply bind_ok in RE as ([[y1 c1] s4] & RE & Q). apply ok_pair_inj in Q as [<- <-].
           exact (RD _ _ _ S _ _ _ _ _ _ RE).
  - apply ok_inj in IN. subst arr. cbn [decode_payload] in H. apply bind_ok in H as (v0 & V & H). cbn [andb] in H. split; [exact (type_bits _ _ _ _ _ _ _ _ _ _ _ (S1 eq_refl) H)|].
    exact (loc_used _ _ _ _ _ (decode_type_loc E m LOC _ _ _ _ _ _ _) (H : _ = Ok ((v, c'), r'))).
Qed.

Lemma field_bits q i f ps fs c r v c' r' : field_spans sch f q -> decode_field E m false false i f ps fs c r = Ok (v, c', r') -> in_range q (used r r').
Proof using RD LOC.
  intros S H.
  assert (X : exists p, q = field_range f p /\ (f_array f = None -> spans sch (f_ty f) p) /\
    (forall a, f_array f = Some a -> p = mkRange 0 None \/ (as_len a = None /\ p = mkRange 8 None)
     \/ exists e x y q, a = mkAS false (Some e) /\ spans sch (f_ty f) q /\ expr_between e x y /\ 0 <= x /\ y < 2 ^ 64 /\ p = elements_range f x y q)).
  { inversion S as [f0 q0 A Q|f0 p0 A|f0 e x y q0 A Q EB X Y|f0 a0 A]; subst f0 q; rewrite A.
    - exists q0. split; [reflexivity|]. split; [intros _; exact Q|discriminate].
    - eexists. split; [reflexivity|]. split; [discriminate|]. intros a [= <-]. right. left. split; reflexivity.
    - eexists. split; [reflexivity|]. split; [discriminate|]. intros a [= <-]. right. right. exists e, x, y, q0. repeat (split; [first [reflexivity|assumption]|]). reflexivity.
    - eexists. split; [reflexivity|]. split; [discriminate|]. intros a [= <-]. left. reflexivity. }
  clear S. destruct X as (p & -> & S1 & S2).
  unfold decode_field in H. apply bind_ok in H as (old & OLD & H). apply bind_ok in H as (arr & IN & H). apply bind_ok in H as (cl & CL & H). destruct cl; cbn [negb] in H.
  - apply bind_ok in H as (s1 & AL & H). apply field_align_bits in AL. destruct (f_optional f) eqn:O.
    + apply bind_ok in H as ([pr s2] & BR & H). apply bool_bits in BR. destruct pr.
      * apply bind_ok in H as ([[y c1] s3] & P & H). apply ok_inj in H. injection H as <- _ <-. destruct (payload_bits i f p ps fs arr c s2 y c1 s3 S1 S2 IN P) as [[P1 P2] P3].
        unfold in_range, field_range, used in *. rewrite O. cbn [least most]. split; [destruct (f_clause f); lia|]. destruct (most p); cbn [up_to] in *; [lia|exact Logic.I].
      * apply ok_inj in H. injection H as <- _ <-. unfold in_range, field_range, used in *. rewrite O. cbn [least most]. split; [destruct (f_clause f); lia|].
        destruct (most p) as [x|] eqn:MP; cbn [up_to]; [|exact Logic.I]. destruct (f_offset f); lia.
    + destruct (payload_bits i f p ps fs arr c s1 v c' r' S1 S2 IN H) as [[P1 P2] P3]. unfold in_range, field_range, used in *. rewrite O. cbn [least most].
      split; [destruct (f_clause f); lia|]. destruct (most p); cbn [up_to] in *; [lia|exact Logic.I].
  - apply ok_inj in H. injection H as <- _ <-. unfold clause in CL. destruct (f_clause f) eqn:C; [|discriminate]. unfold in_range, field_range, used. rewrite C. cbn [least most]. split; [lia|].
    destruct (most p) as [x|] eqn:MP; cbn [up_to]; [|exact Logic.I]. destruct (f_offset f), (f_optional f); lia.
Qed.

Lemma in_plus a b x y : in_range a x -> in_range b y -> in_range (plus a b) (x + y).
Proof using. intros [A1 A2] [B1 B2]. unfold in_range, plus. cbn [least most]. split; [lia|]. destruct (most a), (most b); cbn [up_to] in *; lia || exact Logic.I. Qed.
Lemma in_covers q p x : covers q p -> in_range p x -> in_range q x.
Proof using. intros [A1 A2] [B1 B2]. split; [lia|]. destruct (most q), (most p); cbn [up_to] in *; lia || tauto || exact Logic.I. Qed.

Lemma fields_bits ps fl : forall qs, Forall2 (field_spans sch) fl qs -> forall i fs c r fs' c' r', decode_fields E m false i fl ps fs c r = Ok (fs', c', r') ->
  in_range (fold_right plus (exactly 0) qs) (used r r').
Proof using RD LOC.
  induction fl as [|f fl IH]; intros qs F i fs c r fs' c' r' H; inversion F; subst; cbn [decode_fields fold_right] in *.
  - apply ok_inj in H. injection H as <- _ <-. apply in_exactly. unfold used. lia.
  - apply bind_ok in H as ([[v c1] s1] & D & H). match goal with Q : field_spans sch f _ |- _ => apply (field_bits _ _ _ _ _ _ _ _ _ _ Q) in D end.
    match goal with Q : Forall2 _ fl _ |- _ => apply (IH _ Q) in H end.
    replace (used r r') with (used r s1 + used s1 r') by (unfold used; lia). apply in_plus; assumption.
Qed.

Lemma Forall2_in {A B} (R : A -> B -> Prop) l1 l2 x : Forall2 R l1 l2 -> In x l1 -> exists y, In y l2 /\ R x y.
Proof using. intros F. induction F as [|a b l1 l2 H F IH]; intros I; [destruct I|]. destruct I as [<-|I]; [exists b; split; [left; reflexivity|exact H]|]. destruct (IH I) as (y & Y1 & Y2). exists y. split; [right; exact Y1|exact Y2]. Qed.
Lemma arm_in z cases dflt i f force : choice_arm i cases dflt z = Some (i, f, force) \/ (exists k, choice_arm k cases dflt z = Some (i, f, force)) -> In f (choice_fields cases dflt).
Proof using.
  intros [ARM|(k & ARM)]; revert ARM; [generalize i at 1; intros k|]; revert k; unfold choice_fields; induction cases as [|[cs fo] cases IH]; intros k ARM; cbn [choice_arm flat_map snd app] in *.
  all: try (destruct dflt as [[f'|]|]; try discriminate; injection ARM as _ <- _; left; reflexivity).
  all: destruct (existsb (Z.eqb z) cs); [destruct fo; [|discriminate]; injection ARM as _ <- _; left; reflexivity|]; rewrite <- app_assoc; apply in_or_app; right; exact (IH _ ARM).
Qed.
Lemma full_arm z dflt : forall cases k, full_choice cases dflt -> choice_arm k cases dflt z <> None.
Proof using.
  induction cases as [|[cs fo] cases IH]; intros k (F & f & ->); cbn [choice_arm]; [discriminate|]. inversion F as [|? ? F1 F2]; subst. cbn [snd] in F1.
  destruct (existsb _ _); [destruct fo; [discriminate|congruence]|]. apply IH. split; [exact F2|eauto].
Qed.

Lemma one_of qs q f fl i ps fs c r v c' r' : Forall2 (field_spans sch) fl qs -> Forall (covers q) qs -> In f fl ->
  decode_field E m false false i f ps fs c r = Ok (v, c', r') -> in_range q (used r r').
Proof using RD LOC.
  intros F C I H. destruct (Forall2_in _ _ _ _ F I) as (p & P & S). eapply in_covers; [exact (proj1 (Forall_forall _ _) C p P)|]. exact (field_bits _ _ _ _ _ _ _ _ _ _ S H).
Qed.
Lemma def_bits n d : nth_error sch n = Some d -> forall args q, spans sch (TRef n args) q -> forall c v0 r v c' r', oi_read (def_impl E m d) false c v0 r = Ok (v, c', r') -> in_range q (used r r').
Proof using RD LOC.
  intros ND args q S c v0 r v c' r' H. inversion S; subst; try match goal with Q : nth_error sch n = Some _ |- _ => rewrite Q in ND; injection ND as <- end; cbn [def_impl] in H.
  - split; [exact (loc_used _ _ _ _ _ (def_impl_loc E m LOC d false c v0) (H : _ = Ok ((v, c'), r')))|exact Logic.I].
  - cbn [enum_impl oi_read] in H. apply bind_ok in H as ([[y c1] s1] & H1 & H). apply bind_ok in H as (z & _ & H). apply bind_ok in H as (e & EN & H). apply ok_inj in H. injection H as <- _ <-.
    eapply type_bits; eassumption.
  - cbn [bitmask_impl oi_read] in H. eapply type_bits; eassumption.
  - cbn [struct_impl oi_read] in H. destruct v0; cbn [with_obj] in H; try discriminate. apply bind_ok in H as ([[fs' c1] s1] & H1 & H). apply ok_inj in H. injection H as <- _ <-.
    eapply fields_bits; eassumption.
  - cbn [choice_impl oi_read] in H. destruct v0 as [ | | | | | | | |s0 ps fs]; cbn [with_obj] in H; try discriminate.
    apply bind_ok in H as (a & H1 & H). apply bind_ok in H1 as (z & _ & H1). apply ok_inj in H1. subst a.
    destruct (choice_arm 0 cases default z) as [[[i f] force]|] eqn:ARM.
    + apply bind_ok in H as ([[y c1] s1] & H1 & H). apply ok_inj in H. injection H as <- _ <-. cbn [andb] in H1.
      eapply one_of; try eassumption. eapply arm_in. right. eexists. exact ARM.
    + apply ok_inj in H. injection H as <- _ <-. match goal with Q : full_choice _ _ \/ _ |- _ => destruct Q as [FC|FC] end.
      * destruct (full_arm z _ _ O FC ARM).
      * eapply in_covers; [exact FC|]. apply in_exactly. unfold used. lia.
  - cbn [union_impl oi_read] in H. destruct v0 as [ | | | | | | | |s0 ps fs]; cbn [with_obj] in H; try discriminate.
    apply bind_ok in H as ([z s1] & H1 & H). apply bind_ok in H1 as ([z1 s2] & V & H1). apply varsize_bits in V. destruct (z1 <? zlen F); [|discriminate]. apply ok_pair_inj in H1 as [<- <-].
    unfold get in H. apply bind_ok in H as (f & GF & H). destruct (nth_error F (Z.to_nat z1)) as [f0|] eqn:NF; [|discriminate]. apply ok_inj in GF. subst f0. apply nth_error_In in NF.
    apply bind_ok in H as ([[y c1] s3] & H1 & H). apply ok_inj in H. injection H as <- _ <-.
    replace (used r s3) with (used r s2 + used s2 s3) by (unfold used; lia). apply in_plus; [exact V|]. eapply one_of; eassumption.
Qed.
End Level.

Lemma objects_bits E sch g : forall n args q, spans sch (TRef n args) q ->
  forall c v0 r v c' r', oi_read (impl_at E sch g n) false c v0 r = Ok (v, c', r') -> in_range q (zlen (r_rest r) - zlen (r_rest r')).
Proof.
  induction g as [|g IH]; intros n args q S c v0 r v c' r' H; cbn [impl_at] in H; [discriminate|].
  destruct (nth_error sch n) as [d|] eqn:ND; [|discriminate]. exact (def_bits E sch _ IH (P_Ext.impl_loc E sch g) n d ND args q S _ _ _ _ _ _ H).
Qed.

Lemma data_length : forall l, length (bits_of_data l) = (8 * length l)%nat.
Proof. induction l as [|b l IH]; cbn [bits_of_data length]; [reflexivity|]. rewrite app_length, bits_of_length, IH. lia. Qed.
Lemma zlen_data data : zlen (bits_of_data data) = 8 * zlen data.
Proof. unfold zlen. rewrite data_length. lia. Qed.
Lemma data_app : forall a b, bits_of_data (a ++ b) = bits_of_data a ++ bits_of_data b.
Proof. induction a as [|x a IH]; intros b; cbn [bits_of_data app]; [reflexivity|]. rewrite IH, app_assoc. reflexivity. Qed.
Lemma bits_of_data_firstn k : forall data, bits_of_data (firstn k data) = firstn (8 * k) (bits_of_data data).
Proof.
  intros data. destruct (Nat.le_gt_cases k (length data)) as [L|G].
  - rewrite <- (firstn_skipn k data) at 2. rewrite data_app, firstn_app. rewrite data_length, firstn_length_le by exact L.
    replace (8 * k - 8 * k)%nat with O by lia. rewrite firstn_O, app_nil_r. symmetry. apply firstn_all2. rewrite data_length, firstn_length_le by exact L. lia.
  - rewrite !firstn_all2; [reflexivity|rewrite data_length; lia|lia].
Qed.

Lemma bytes_read sch n args q : spans sch (TRef n args) q -> forall E g data v, from_bytes (impl_at E sch g n) data = Ok v ->
  least q <= 8 * zlen data /\ forall m k, most q = Some m -> m <= 8 * Z.of_nat k -> from_bytes (impl_at E sch g n) (firstn k data) = Ok v.
Proof.
  intros S E g data v H. unfold from_bytes in *. apply bind_ok in H as (d & D & H). apply bind_ok in H as ([[v1 c] r'] & R & H). apply ok_inj in H. subst v1.
  destruct (objects_bits E sch g n args q S _ _ _ _ _ _ R) as [A B]. cbn [r_rest] in A, B. rewrite zlen_data in *. pose proof (zlen_nonneg _ (r_rest r')) as N. split; [lia|].
  intros m k M K. rewrite M in B. cbn [up_to] in B. rewrite D. cbn [bind].
  destruct (P_Ext.impl_loc E sch g n _ _ _ _ _ _ _ R) as (bs & Q & X). rewrite bits_of_data_firstn, Q, firstn_app.
  assert (L : (length bs <= 8 * k)%nat). { rewrite <- zlen_data, Q, zlen_app in B. unfold zlen in B. lia. }
  rewrite (firstn_all2 bs) by exact L. rewrite X. reflexivity.
Qed.

