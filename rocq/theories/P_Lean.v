(** The size of decoded values (C81). *)
From Coq Require Import ZArith List Bool Lia.
From Verif Require Import M_Base M_Bits M_Var M_Prim M_Array M_Gen S_Base S_Var S_Prim S_Array S_Read S_Gen S_Again S_Lean.
From Verif Require Import P_Base P_Bits P_Var P_Var2 P_Prim P_Read P_Gen3.
From Verif Require P_Ext2.
Import ListNotations.
Open Scope Z_scope.

Definition sizes (l : list value) : Z := fold_right (fun v s => size v + s) 0 l.
Lemma sum_sizes l : (fix sum (l : list value) : Z := match l with [] => 0 | x :: t => size x + sum t end) l = sizes l.
Proof. induction l as [|x l IH]; [reflexivity|]. unfold sizes. cbn [fold_right]. fold (sizes l). rewrite <- IH. reflexivity. Qed.
Lemma size_arr l : size (VArr l) = 1 + sizes l.
Proof. rewrite <- sum_sizes. reflexivity. Qed.
Lemma size_obj s ps fs : size (VObj s ps fs) = 1 + sizes ps + sizes fs.
Proof. rewrite <- !sum_sizes. reflexivity. Qed.
Lemma sizes_nonneg l : Forall (fun v => 1 <= size v) l -> 0 <= sizes l.
Proof. induction 1 as [|x l X _ IH]; cbn; [lia|]. unfold sizes in IH. lia. Qed.
Lemma size_pos v : 1 <= size v.
Proof.
  apply (value_ind' (fun v => 1 <= size v)); clear v.
  - intros v T. destruct v as [z|b|w z|s|x| |v|l|s ps fs]; try contradiction; cbn [size]; try lia.
    + pose proof (zlen_nonneg _ s). lia.
    + pose proof (zlen_nonneg _ (b_blob x)). lia.
  - intros v IH. cbn [size]. lia.
  - intros l IH. rewrite size_arr. apply sizes_nonneg in IH. lia.
  - intros s ps fs I1 I2. rewrite size_obj. apply sizes_nonneg in I1. apply sizes_nonneg in I2. lia.
Qed.
Lemma sizes_pos l : 0 <= sizes l.
Proof. apply sizes_nonneg. apply Forall_forall. intros x _. exact (size_pos x). Qed.
Lemma sizes_cons x l : sizes (x :: l) = size x + sizes l.
Proof. reflexivity. Qed.
Lemma sizes_upd i v l : sizes (upd i v l) <= sizes l + size v.
Proof.
  revert i. induction l as [|x l IH]; intros i; [cbn [upd]; pose proof (size_pos v); destruct i; cbn; lia|]. destruct i as [|i]; cbn [upd]; rewrite !sizes_cons.
  - pose proof (size_pos x). lia.
  - specialize (IH i). lia.
Qed.

(** Bits taken from the reader. *)
Definition used (r r' : reader) : Z := zlen (r_rest r) - zlen (r_rest r').
Lemma consumes_used r r' : consumes r r' -> used r r' = r_pos r' - r_pos r /\ 0 <= used r r'.
Proof.
  intros (bs & A & B). unfold used. rewrite A, zlen_app. pose proof (zlen_nonneg _ bs). lia.
Qed.

Lemma kind_used k b r v r' : kind_ok k -> kind_read k b r = Ok (v, r') ->
  0 <= used r r' /\ match kind_bits k with Some n => used r r' = n | None => 1 <= used r r' end.
Proof.
  intros K H. pose proof (scalar_total k b r K) as T. rewrite H in T. destruct T as (_ & C & P). apply consumes_used in C.
  destruct (kind_bits k); lia.
Qed.
Lemma varsize_used r v r' : read_varsize r = Ok (v, r') -> 0 <= v /\ 1 <= used r r'.
Proof.
  intros H. destruct (kind_used (KVarU VSIZE) Debug r v r' Logic.I H) as [A B]. cbn in B.
  destruct (varsize_total r) as [(x & r1 & E & X & _)|E]; rewrite H in E; [|discriminate]. apply ok_pair_inj in E as [<- _]. lia.
Qed.

Definition some_bits (b : bty) (n : Z) : Prop := match b with BBits _ m => 1 <= m | BDyn _ _ => n <> 0 | _ => True end.

(** What is read is at most as large as what it is read from. *)
Definition fair (b : bty) (n : Z) (v : value) (r r' : reader) : Prop :=
  size v <= 1 + used r r' /\ 0 <= used r r' /\ (some_bits b n -> size v <= used r r').

Lemma number_fair b n k bl z inj v r r' : kind_ok k -> kind_read k bl r = Ok (z, r') -> v = inj z -> (forall z, size (inj z) = 1) ->
  (some_bits b n -> match kind_bits k with Some m => 1 <= m | None => True end) -> fair b n v r r'.
Proof.
  intros K H -> S M. destruct (kind_used k bl r z r' K H) as [A B]. unfold fair. rewrite S. split; [lia|]. split; [lia|]. intros X. specialize (M X).
  destruct (kind_bits k); lia.
Qed.

Lemma string_used r s r' : read_string r = Ok (s, r') -> 1 + zlen s <= used r r' /\ 1 <= used r r'.
Proof.
  intros H. destruct (string_read_sound r s r' H) as (_ & _ & r1 & V & R & _). apply varsize_used in V.
  unfold used in *. rewrite R, zlen_app, zlen_bits_of_bytes in V. pose proof (zlen_nonneg _ s). lia.
Qed.
Lemma bytes_used r x r' : read_bytes_type r = Ok (x, r') -> 1 + zlen (b_blob x) <= used r r' /\ 1 <= used r r'.
Proof.
  unfold read_bytes_type. intros H. apply bind_ok in H as ([n r1] & V & H). apply varsize_used in V.
  apply bind_ok in H as ([bs r2] & B & H). apply ok_pair_inj in H as [<- <-]. cbn [b_blob].
  destruct (read_bytes_inv n r1 ltac:(lia)) as [(_ & X & _)|(bs' & rest & A & _ & R & X & _)]; rewrite B in X; [discriminate|].
  apply ok_pair_inj in X as [<- ->]. unfold used in *. cbn [r_rest]. rewrite R, zlen_app, zlen_bits_of_bytes in V. pose proof (zlen_nonneg _ bs). lia.
Qed.
Lemma zlen_skipn_exact A n (l : list A) : 0 <= n <= zlen l -> zlen (skipn (Z.to_nat n) l) = zlen l - n.
Proof. intros H. unfold zlen in *. rewrite skipn_length. lia. Qed.
Lemma extern_used r x r' : read_extern_type r = Ok (x, r') -> 1 + zlen (b_blob x) <= used r r' /\ 1 <= used r r'.
Proof.
  intros H. pose proof (extern_decode r) as D. destruct (read_varsize r) as [[n r1]|e| |] eqn:V; try congruence. apply varsize_used in V.
  destruct D as [[_ X]|[[_ X]|(L & blob & _ & B & X)]]; try congruence. rewrite H in X. apply ok_pair_inj in X as [-> ->].
  unfold used in *. cbn [r_rest b_blob]. rewrite zlen_skipn_exact by lia. rewrite B. assert ((n + 7) / 8 <= n) by (destruct (Z.eq_dec n 0); [subst n; cbn; lia|apply Z.div_le_upper_bound; lia]). lia.
Qed.

Lemma scalar_fair E b n r v r' : width_ok b -> 0 <= n -> scalar_read E b n r = Ok (v, r') -> fair b n v r r'.
Proof.
  intros W N H. destruct b as [[] w|[] m|[] e|t|t| | | | | | |]; cbn [scalar_read width_ok] in *; apply bind_ok in H as ([z r1] & R & H); apply ok_pair_inj in H as [<- <-].
  - eapply (number_fair _ _ (KSInt w) Debug); try exact R; try reflexivity; try exact W. cbn in *. lia.
  - eapply (number_fair _ _ (KUInt w) Debug); try exact R; try reflexivity; try exact W. cbn in *. lia.
  - eapply (number_fair _ _ (KSBits m) Debug); try exact R; try reflexivity; cbn; lia.
  - eapply (number_fair _ _ (KBits m) Debug); try exact R; try reflexivity; cbn; lia.
  - assert (n <= 64) by (unfold read_signed_bits in R; destruct (Z.ltb_spec 64 n); [discriminate|lia]).
    eapply (number_fair _ _ (KSBits n) Debug); try exact R; try reflexivity; cbn; lia.
  - assert (n <= 64) by (unfold read_unsigned_bits in R; destruct (Z.ltb_spec 64 n); [discriminate|lia]).
    eapply (number_fair _ _ (KBits n) Debug); try exact R; try reflexivity; cbn; lia.
  - eapply (number_fair _ _ (KVarU t) Debug); try exact R; try reflexivity; exact (fun _ => Logic.I) || exact Logic.I.
  - eapply (number_fair _ _ (KVarS t) (e_build E)); try exact R; try reflexivity; exact (fun _ => Logic.I) || exact Logic.I.
  - eapply (number_fair _ _ KBool Debug (if z then 1 else 0) (fun _ => VBool z)); try reflexivity; cbn; try lia. rewrite R. reflexivity.
  - eapply (number_fair _ _ KFloat16 Debug); try exact R; try reflexivity; cbn; lia || exact Logic.I.
  - eapply (number_fair _ _ KFloat32 Debug); try exact R; try reflexivity; cbn; lia || exact Logic.I.
  - eapply (number_fair _ _ KFloat64 Debug); try exact R; try reflexivity; cbn; lia || exact Logic.I.
  - apply string_used in R. unfold fair. cbn [size]. split; [lia|]. split; [lia|]. intros _. lia.
  - apply extern_used in R. unfold fair. cbn [size]. split; [lia|]. split; [lia|]. intros _. lia.
  - apply bytes_used in R. unfold fair. cbn [size]. split; [lia|]. split; [lia|]. intros _. lia.
Qed.

Lemma elem_fair E b n r v r' : width_ok b -> 0 <= n -> eo_read (bty_ops E b n) r = Ok (v, r') -> fair b n v r r'.
Proof.
  intros W N H. destruct b as [[] w|[] m|[] e|t|t| | | | | | |]; try exact (scalar_fair E _ n r v r' W N H);
    cbn [bty_ops lift eo_read ubits_ops sbits_ops width_ok] in *;
    apply bind_ok in H as ([y r1] & H1 & H); apply ok_pair_inj in H as [<- <-]; apply bind_ok in H1 as ([z r2] & R & H); apply ok_pair_inj in H as [<- <-].
  - eapply (number_fair _ _ (KSBits w) Debug _ (fun z => VInt (wrap_s w z))); try exact R; try reflexivity; cbn in *; lia.
  - eapply (number_fair _ _ (KBits w) Debug _ (fun z => VInt (wrap_u w z))); try exact R; try reflexivity; cbn in *; lia.
  - eapply (number_fair _ _ (KSBits m) Debug _ (fun z => VInt (wrap_s 64 z))); try exact R; try reflexivity; cbn in *; lia.
  - eapply (number_fair _ _ (KBits m) Debug _ (fun z => VInt (wrap_u 64 z))); try exact R; try reflexivity; cbn in *; lia.
  - assert (n <= 64) by (unfold read_signed_bits in R; destruct (Z.ltb_spec 64 n); [discriminate|lia]).
    eapply (number_fair _ _ (KSBits n) Debug _ (fun z => VInt (wrap_s 64 z))); try exact R; try reflexivity; cbn in *; lia.
  - assert (n <= 64) by (unfold read_unsigned_bits in R; destruct (Z.ltb_spec 64 n); [discriminate|lia]).
    eapply (number_fair _ _ (KBits n) Debug _ (fun z => VInt (wrap_u 64 z))); try exact R; try reflexivity; cbn in *; lia.
Qed.

Lemma align_used a r r' : align_reader a r = Ok r' -> 0 <= used r r'.
Proof.
  unfold align_reader, br_skip. intros H. destruct (Z.eqb_spec a 0); [discriminate|]. destruct (_ <? _); [discriminate|]. apply ok_inj in H. subst r'.
  unfold used, br_advance, zlen. cbn [r_rest]. rewrite skipn_length. lia.
Qed.
Lemma field_align_used f r r' : field_align_reader f r = Ok r' -> 0 <= used r r'.
Proof.
  unfold field_align_reader. intros H. apply bind_ok in H as (r1 & A & B).
  assert (0 <= used r r1) by (destruct (Z.eqb_spec (f_align f) 0); [apply ok_inj in A; subst; unfold used; lia|exact (align_used _ _ _ A)]).
  assert (0 <= used r1 r') by (destruct (f_offset f); try (apply ok_inj in B; subst; unfold used; lia); exact (align_used _ _ _ B)).
  unfold used in *. lia.
Qed.
Lemma elem_align_used offs r r' : align_elem_reader offs r = Ok r' -> 0 <= used r r'.
Proof. unfold align_elem_reader. destruct offs; [apply align_used|]. intros H. apply ok_inj in H. subst. unfold used. lia. Qed.

(** ** Constants of a schema *)
Definition counted (N : nat) (d : tdef) : Prop :=
  (length (def_params d) <= N)%nat /\ (length (def_fields d) <= N)%nat
  /\ Forall (fun f => match f_ty f with TRef _ args => (length args <= N)%nat | TB _ => True end) (def_fields d).
Lemma counted_more N M d : (N <= M)%nat -> counted N d -> counted M d.
Proof.
  intros L (A & B & C). split; [lia|]. split; [lia|]. revert C. apply Forall_impl. intros f. destruct (f_ty f); [auto|lia].
Qed.
Lemma args_counted fl : exists N, Forall (fun f => match f_ty f with TRef _ args => (length args <= N)%nat | TB _ => True end) fl.
Proof.
  induction fl as [|f fl (N & H)]; [exists O; constructor|].
  exists (N + match f_ty f with TRef _ args => length args | TB _ => O end)%nat. constructor; [destruct (f_ty f); [exact Logic.I|lia]|].
  revert H. apply Forall_impl. intros x. destruct (f_ty x); [auto|lia].
Qed.
Lemma all_counted (sch : schema) : exists N, (1 <= N)%nat /\ Forall (counted N) sch.
Proof.
  induction sch as [|d sch (N & P & H)]; [exists 1%nat; split; [lia|constructor]|].
  destruct (args_counted (def_fields d)) as (M & A).
  exists (N + M + length (def_params d) + length (def_fields d))%nat. split; [lia|]. constructor.
  - split; [lia|]. split; [lia|]. revert A. apply Forall_impl. intros x. destruct (f_ty x); [auto|lia].
  - revert H. apply Forall_impl. intros x. apply counted_more. lia.
Qed.

Lemma ranks_bounded (rank : nat -> nat) l : exists B, forall k, (k < l)%nat -> (rank k < B)%nat.
Proof.
  induction l as [|l (B & IH)]; [exists O; lia|]. exists (S (Nat.max B (rank l))). intros k K. destruct (Nat.eq_dec k l) as [->|]; [lia|]. specialize (IH k ltac:(lia)). lia.
Qed.

Section Lean.
Context (sch : schema) (rank : nat -> nat) (c : Z) (N : nat).
Context (LEAN : forall n d, nth_error sch n = Some d ->
    Forall (below rank n) (def_params d ++ def_fields d) /\ Forall (lean_field sch c) (def_fields d)
    /\ match d with DEnum b _ | DBitmask b _ => static_int b /\ width_ok b | _ => True end).
Context (N1 : (1 <= N)%nat) (CN : Forall (counted N) sch) (C0 : 0 <= c).
Context (R : nat) (RANK : forall n, (n < length sch)%nat -> (rank n < R)%nat).
Context (E : env).
Let n' := Z.of_nat N.

Fixpoint dmax (r : nat) : Z := match r with O => 1 | S r => 1 + 2 * n' * dmax r end.
Fixpoint base (r : nat) : Z := match r with O => 1 | S r => n' * (2 + dmax r + n' * c + base r) end.
Definition K : Z := 2 + dmax R + n' * c + base R.
Lemma dmax_pos r : 1 <= dmax r.
Proof using N1. clear - N1. induction r as [|r IH]; cbn [dmax]; [lia|]. unfold n'. nia. Qed.
Lemma base_pos r : 1 <= base r.
Proof using N1 C0. clear - N1 C0. induction r as [|r IH]; [cbn; lia|]. cbn [base]. pose proof (dmax_pos r). unfold n' in *. nia. Qed.
Lemma K_pos : 1 <= K.
Proof using N1 C0. clear - N1 C0. unfold K. pose proof (dmax_pos R). pose proof (base_pos R). unfold n' in *. nia. Qed.

(** [x] is read from [u] bits; if [P] from one bit more than it accounts for. *)
Definition within (P : Prop) (x b u : Z) : Prop := x <= b + K * u /\ 0 <= u /\ (P -> x <= b + K * (u - 1) /\ 1 <= u).

Definition fit (o : obj_impl) (n : nat) (r : nat) : Prop :=
  (forall v, oi_default o = Ok v -> size v <= dmax r)
  /\ (forall ctx v0 s v x s', oi_read o false ctx v0 s = Ok (v, x, s') ->
        within (exists args, takes sch (TRef n args)) (size v) (size v0 + base r) (used s s')).

Section Below.
Context (m : nat -> obj_impl) (l : nat) (BELOW : forall k, (rank k < l)%nat -> fit (m k) k l) (ANY : forall k, fit (m k) k R).
Definition low (f : field) : Prop := match f_ty f with TRef k _ => f_array f = None -> (rank k < l)%nat | TB _ => True end.

Lemma field_default_fit f v : low f -> field_default m f = Ok v -> size v <= dmax l.
Proof using BELOW N1.
  clear LEAN CN ANY RANK. pose proof (dmax_pos l) as D. intros B H. unfold field_default in H. destruct (f_optional f); [apply ok_inj in H; subst; cbn; lia|].
  unfold low in B. destruct (f_array f); [apply ok_inj in H; subst; cbn; lia|]. destruct (f_ty f) as [b|k args]; cbn [item_default] in H.
  - apply ok_inj in H. subst. destruct b as [[] w|[] w|[] w|t|t| | | | | | |]; cbn; lia.
  - exact (proj1 (BELOW k (B eq_refl)) _ H).
Qed.
Lemma defaults_fit fl : Forall low fl -> forall l', defaults m fl = Ok l' -> sizes l' <= Z.of_nat (length fl) * dmax l.
Proof using BELOW N1.
  clear LEAN CN ANY RANK. induction 1 as [|f fl B _ IH]; intros l' H; cbn [defaults] in H; [apply ok_inj in H; subst; cbn; lia|].
  apply bind_ok in H as (v & H1 & H). apply bind_ok in H as (l1 & H2 & H). apply ok_inj in H. subst l'.
  apply (field_default_fit f v B) in H1. apply IH in H2. cbn [length]. rewrite sizes_cons. lia.
Qed.

Lemma eval_fit args i ps fs qs : Forall (fun a : expr value => forall i ps fs v, a i ps fs = Ok v -> size v <= c) args ->
  eval_args args i ps fs = Ok qs -> sizes qs <= Z.of_nat (length args) * c.
Proof using.
  clear. intros F. revert qs. induction F as [|a args A _ IH]; intros qs H; cbn [eval_args] in H; [apply ok_inj in H; subst; cbn; lia|].
  apply bind_ok in H as (v & H1 & H). apply bind_ok in H as (l1 & H2 & H). apply ok_inj in H. subst qs.
  apply A in H1. apply IH in H2. cbn [length]. rewrite sizes_cons. lia.
Qed.

Definition small_ty (q : nat) (t : ty) : Prop :=
  match t with
  | TB b => width_ok b
  | TRef k args => fit (m k) k q /\ (length args <= N)%nat /\ Forall (fun a : expr value => forall i ps fs v, a i ps fs = Ok v -> size v <= c) args
  end.
Lemma fresh_fit q t ps fs i v : small_ty q t -> fresh_item m t ps fs i = Ok v -> size v <= dmax q + n' * c.
Proof using N1 C0.
  clear LEAN CN ANY BELOW RANK. clear rank. pose proof (dmax_pos q) as D. assert (NC : 0 <= n' * c) by (unfold n'; nia).
  intros S H. destruct t as [b|k args]; cbn [fresh_item item_default] in H.
  - apply ok_inj in H. subst. destruct b as [[] w|[] w|[] w|t|t| | | | | | |]; cbn [bty_default size]; try lia; cbn; lia.
  - destruct S as (B & L & F). destruct B as [DF _]. destruct args as [|a args]; [apply DF in H; lia|].
    apply bind_ok in H as (qs & H1 & H). apply bind_ok in H as (d & H2 & H). apply DF in H2. apply (eval_fit _ _ _ _ _ F) in H1.
    destruct d as [ | | | | | | | |s0 p0 f0]; cbn [set_params] in H; try discriminate. apply ok_inj in H. subst v. rewrite size_obj in *. pose proof (sizes_pos p0).
    assert (Z.of_nat (length (a :: args)) * c <= n' * c) by (unfold n'; apply Z.mul_le_mono_nonneg_r; lia). lia.
Qed.

Lemma num_bits_range b ps fs w : num_bits b ps fs = Ok w -> 0 <= w /\ (takes sch (TB b) -> some_bits b w).
Proof using.
  clear. intros H. destruct b as [[] w0|[] m0|sg e|t|t| | | | | | |]; cbn [num_bits] in H; try (apply ok_inj in H; subst w; split; [lia|]; intros T; inversion T; subst; cbn in *; assumption || exact Logic.I).
  unfold rmap in H. apply bind_ok in H as (x & X & H). apply ok_inj in H. subst w. split; [unfold wrap_u; apply Z.mod_pos_bound; lia|].
  intros T. inversion T as [b0 T0| | | | ]; subst. exact (T0 ps fs x X).
Qed.

Lemma single_fit q i t ps fs v0 ctx s v x s' : small_ty q t -> decode_type E m false i t ps fs v0 ctx s = Ok (v, x, s') ->
  within (takes sch t) (size v) (size v0 + base q) (used s s').
Proof using N1 C0.
  clear LEAN CN ANY BELOW RANK. clear rank. intros S H. pose proof (base_pos q). pose proof K_pos. pose proof (size_pos v0). pose proof (size_pos v). destruct t as [b|k args]; cbn [decode_type andb] in H.
  - apply bind_ok in H as (w & NB & H). apply bind_ok in H as ([y s1] & R1 & H). apply ok_inj in H. injection H as -> _ ->.
    destruct (num_bits_range _ _ _ _ NB) as [W T]. destruct (scalar_fair E b w s v s' S W R1) as (A & B & C). split; [nia|]. split; [lia|]. intros TK. specialize (C (T TK)). split; [nia|lia].
  - apply bind_ok in H as ([[y c1] s1] & R1 & H). apply ok_inj in H. injection H as -> _ ->.
    destruct S as ((_ & RD) & _). destruct (RD _ _ _ _ _ _ R1) as (X & Y & Z). split; [lia|]. split; [lia|]. intros T. apply Z. exists args. exact T.
Qed.

Lemma elems_fit (A : array_trait value) offs mk q k : forall i s L s',
  (forall j v, mk j = Ok v -> forall s y s', at_read A v s = Ok (y, s') -> size y <= q * used s s' /\ 1 <= used s s') ->
  read_all A offs mk k i s = Ok (L, s') -> 0 <= q -> sizes L <= q * used s s' /\ 0 <= used s s'.
Proof using.
  clear. intros i s L s' MK H Q. revert i s L s' H. induction k as [|k IH]; intros i s L s' H; cbn [read_all] in H.
  - apply ok_pair_inj in H as [<- <-]. unfold used. cbn. lia.
  - apply bind_ok in H as (v & V & H). apply bind_ok in H as (s1 & A1 & H). apply bind_ok in H as ([y s2] & R & H). apply bind_ok in H as ([L1 s3] & RL & H).
    apply ok_pair_inj in H as [<- <-]. apply elem_align_used in A1. destruct (MK _ _ V _ _ _ R) as [Y U]. apply IH in RL as [Y2 U2]. rewrite sizes_cons. unfold used in *. nia.
Qed.

Lemma payload_fit i f ps fs arr ctx s v x s' : match f_array f with Some a => (small_ty R (f_ty f) /\ as_packed a = false) /\ takes sch (f_ty f) | None => small_ty l (f_ty f) end ->
  instantiate_array E m f false ps fs = Ok arr -> decode_payload E m false arr i f ps fs ctx s = Ok (v, x, s') ->
  within ((exists p, f_array f = Some (mkAS p None)) \/ (f_array f = None /\ takes sch (f_ty f))) (size v) (1 + dmax l + n' * c + base l) (used s s').
Proof using N1 C0.
  clear LEAN CN ANY BELOW RANK. clear rank. intros AR IN H. pose proof (base_pos l) as B0. pose proof K_pos as R0. pose proof (dmax_pos l) as D0. assert (NC : 0 <= n' * c) by (unfold n'; nia).
  unfold instantiate_array in IN. destruct (f_array f) as [a|] eqn:A.
  - destruct AR as [[S NP] T]. apply bind_ok in IN as (tr & TR & IN). apply bind_ok in IN as (len & LN & IN). apply ok_inj in IN. subst arr. rewrite NP in H. cbn [orb andb decode_payload] in H.
    apply bind_ok in H as ([k s1] & RL & H). apply bind_ok in H as ([] & _ & H). apply bind_ok in H as ([L s2] & RA & H). apply ok_inj in H. injection H as <- _ <-.
    unfold array_read in RA. cbn [a_packed a_trait] in RA.
    assert (U1 : 0 <= used s s1 /\ (as_len a = None -> 1 <= used s s1)).
    { unfold array_read_length in RL. cbn [a_fixed] in RL. destruct (as_len a) as [e|].
      - unfold rmap in LN. apply bind_ok in LN as (k0 & _ & LN). apply ok_inj in LN. subst len. apply ok_pair_inj in RL as [_ <-]. split; [unfold used; lia|discriminate].
      - apply ok_inj in LN. subst len. apply varsize_used in RL. lia. }
    assert (EL : sizes L <= K * used s1 s2 /\ 0 <= used s1 s2).
    { eapply elems_fit; [|exact RA|lia]. intros j v V s0 y s3 RE. pose proof (fresh_fit _ _ _ _ _ _ S V) as FV. destruct (f_ty f) as [b|k0 args].
      - apply bind_ok in TR as (w & NB & TR). apply ok_inj in TR. subst tr. cbn [delta_trait at_read] in RE. destruct (num_bits_range _ _ _ _ NB) as [W TK].
        destruct (elem_fair E b w s0 y s3 S W RE) as (X & Y & Z). specialize (Z (TK T)). pose proof (size_pos y). split; [nia|lia].
      - apply ok_inj in TR. subst tr. cbn [object_trait at_read] in RE. apply bind_ok in RE as ([[y1 c1] s4] & RE & Q). apply ok_pair_inj in Q as [<- <-].
        destruct S as ((_ & RD) & _). destruct (RD _ _ _ _ _ _ RE) as (X & Y & Z). destruct (Z (ex_intro _ _ T)) as [Z1 Z2]. split; [|exact Z2].
        assert (KK : K = 2 + dmax R + n' * c + base R) by reflexivity. lia. }
    destruct EL as [EL U2]. rewrite size_arr. unfold within, used in *. split; [nia|]. split; [lia|]. intros [(p & Q)|[Q _]]; [|discriminate]. injection Q as ->. cbn [as_len] in U1. destruct U1 as [_ U1]. specialize (U1 eq_refl). split; [nia|lia].
  - apply ok_inj in IN. subst arr. cbn [decode_payload] in H. apply bind_ok in H as (v0 & V & H). apply (fresh_fit _ _ _ _ _ _ AR) in V.
    cbn [andb] in H. apply (single_fit _ _ _ _ _ _ _ _ _ _ _ AR) in H as (X & Y & Z). split; [lia|]. split; [lia|]. intros [(p & Q)|[_ Q]]; [discriminate|]. destruct (Z Q). split; lia.
Qed.

Lemma field_fit i f ps fs ctx s v x s' : low f -> lean_field sch c f -> match f_ty f with TRef _ args => (length args <= N)%nat | TB _ => True end ->
  decode_field E m false false i f ps fs ctx s = Ok (v, x, s') ->
  within (f_clause f = None /\ (f_optional f = true \/ (exists p, f_array f = Some (mkAS p None)) \/ (f_array f = None /\ takes sch (f_ty f))))
    (sizes (upd i v fs)) (sizes fs + (2 + dmax l + n' * c + base l)) (used s s').
Proof using BELOW ANY N1 C0.
  clear LEAN CN RANK. intros LOW (AR & TY) LN H. pose proof (base_pos l) as B0. pose proof K_pos as R0. pose proof (dmax_pos l) as D0. assert (NC : 0 <= n' * c) by (unfold n'; nia).
  assert (S : match f_array f with Some a => (small_ty R (f_ty f) /\ as_packed a = false) /\ takes sch (f_ty f) | None => small_ty l (f_ty f) end).
  { unfold low, small_ty in *. destruct (f_array f); destruct (f_ty f) as [b|k args].
    - tauto.
    - pose proof (ANY k). tauto.
    - exact TY.
    - pose proof (BELOW k (LOW eq_refl)). tauto. }
  clear BELOW ANY.
  unfold decode_field, get in H. apply bind_ok in H as (old & OLD & H). destruct (nth_error fs i) as [o|] eqn:NO; [|discriminate]. apply ok_inj in OLD. subst o.
  assert (KEEP : sizes (upd i old fs) = sizes fs).
  { clear - NO. revert i NO. induction fs as [|y fs IH]; intros [|i] NO; try discriminate; cbn [upd nth_error] in *; rewrite ?sizes_cons; [congruence|]. rewrite (IH i NO). reflexivity. }
  apply bind_ok in H as (arr & IN & H). apply bind_ok in H as (cl & CL & H). destruct cl; cbn [negb] in H.
  - apply bind_ok in H as (s1 & AL & H). apply field_align_used in AL. destruct (f_optional f) eqn:O.
    + apply bind_ok in H as ([p s2] & BR & H).
      assert (U : used s1 s2 = 1). { destruct (kind_used KBool Debug s1 (if p then 1 else 0) s2 Logic.I) as [_ U]; [cbn [kind_read]; rewrite BR; destruct p; reflexivity|exact U]. }
      destruct p.
      * apply bind_ok in H as ([[y c1] s3] & P & H). apply ok_inj in H. injection H as <- _ <-.
        apply (payload_fit _ _ _ _ _ _ _ _ _ _ S IN) in P as (X & Y & _). pose proof (sizes_upd i (VSome y) fs) as SU. cbn [size] in SU. unfold within, used in *. split; [nia|]. split; [lia|]. intros _. split; [nia|lia].
      * apply ok_inj in H. injection H as <- _ <-. rewrite KEEP. unfold within, used in *. split; [nia|]. split; [lia|]. intros _. split; [nia|lia].
    + apply (payload_fit _ _ _ _ _ _ _ _ _ _ S IN) in H as (X & Y & Z). pose proof (sizes_upd i v fs) as SU. unfold within, used in *. split; [nia|]. split; [lia|]. intros [_ [Q|Q]]; [discriminate|]. destruct (Z Q). split; [nia|lia].
  - apply ok_inj in H. injection H as <- _ <-. rewrite KEEP. unfold within, used. split; [nia|]. split; [lia|]. intros [Q _]. unfold clause in CL. rewrite Q in CL. discriminate.
Qed.

Lemma fields_fit ps fl : Forall low fl -> Forall (lean_field sch c) fl -> Forall (fun f => match f_ty f with TRef _ args => (length args <= N)%nat | TB _ => True end) fl ->
  forall i fs ctx s fs' x s', decode_fields E m false i fl ps fs ctx s = Ok (fs', x, s') ->
  within (exists f, In f fl /\ f_clause f = None /\ (f_optional f = true \/ (exists p, f_array f = Some (mkAS p None)) \/ (f_array f = None /\ takes sch (f_ty f))))
    (sizes fs') (sizes fs + Z.of_nat (length fl) * (2 + dmax l + n' * c + base l)) (used s s').
Proof using BELOW ANY N1 C0.
  clear LEAN CN RANK. intros F1 F2 F3. induction fl as [|f fl IH]; intros i fs ctx s fs' x s' H; cbn [decode_fields] in H.
  - apply ok_inj in H. injection H as <- _ <-. unfold within, used. cbn [length]. split; [lia|]. split; [lia|]. intros (f & [] & _).
  - inversion F1; inversion F2; inversion F3; subst. apply bind_ok in H as ([[v c1] s1] & D & H).
    apply (field_fit i f ps fs ctx s v c1 s1) in D as (X & Y & Z); try assumption. apply IH in H as (X2 & Y2 & Z2); try assumption.
    clear BELOW ANY. unfold within, used in *. cbn [length]. split; [lia|]. split; [lia|]. intros (g & [<-|G] & G1 & G2); [destruct (Z (conj G1 G2)); lia|].
    destruct (Z2 ltac:(eauto)). lia.
Qed.
End Below.

Lemma objects_fit g : forall l n, ((n < length sch)%nat -> (rank n < l)%nat) -> fit (impl_at E sch g n) n l.
Proof using LEAN N1 CN C0 RANK.
  induction g as [|g IH]; intros l n R0; [split; cbn; discriminate|]. cbn [impl_at].
  destruct (nth_error sch n) as [d|] eqn:ND; [|split; cbn; discriminate].
  assert (R1 : (rank n < l)%nat) by (apply R0, nth_error_Some; congruence). clear R0. destruct l as [|l]; [lia|].
  destruct (LEAN n d ND) as (LOW & LF & EB). pose proof (proj1 (Forall_forall _ _) CN d (nth_error_In _ _ ND)) as (C1 & C2 & C3).
  assert (BELOW : forall k, (rank k < l)%nat -> fit (impl_at E sch g k) k l) by (intros k L; apply IH; intros _; exact L).
  assert (ANY : forall k, fit (impl_at E sch g k) k R) by (intros k; apply IH, RANK).
  assert (LOW' : Forall (low l) (def_params d ++ def_fields d)).
  { revert LOW. apply Forall_impl. intros f. unfold below, low. destruct (f_ty f); [auto|]. intros Q1 Q2. specialize (Q1 Q2). lia. }
  apply Forall_app in LOW' as [LP LF']. clear LOW LEAN IH CN RANK. set (m := impl_at E sch g) in *. clearbody m.
  pose proof (base_pos l) as B0. pose proof K_pos as R0. pose proof (dmax_pos l) as D0. assert (NC : 0 <= n' * c) by (unfold n'; nia).
  assert (NN : 1 <= n') by (unfold n'; lia).
  assert (DEF : forall v, (do ps <- defaults m (def_params d) ; do fs <- defaults m (def_fields d) ; Ok (VObj 0 ps fs)) = Ok v -> size v <= dmax (S l)).
  { intros v H. apply bind_ok in H as (ps & H1 & H). apply bind_ok in H as (fs & H2 & H). apply ok_inj in H. subst v.
    apply (defaults_fit m l BELOW _ LP) in H1. apply (defaults_fit m l BELOW _ LF') in H2. rewrite size_obj. cbn [dmax].
    assert (Z.of_nat (length (def_params d)) * dmax l <= n' * dmax l) by (unfold n'; apply Z.mul_le_mono_nonneg_r; lia).
    assert (Z.of_nat (length (def_fields d)) * dmax l <= n' * dmax l) by (unfold n'; apply Z.mul_le_mono_nonneg_r; lia). lia. }
  assert (BASE : base (S l) = n' * (2 + dmax l + n' * c + base l)) by reflexivity.
  assert (ONE : 2 + dmax l + n' * c + base l <= base (S l)) by (rewrite BASE; nia).
  assert (NUM : forall b v0 s y s', static_int b -> width_ok b -> (do n <- num_bits b [] [] ; do (v, r) <- scalar_read E b n s ; Ok (v, v0 : ctxnode, r)) = Ok (y, v0, s') ->
    size y <= 1 + used s s' /\ 0 <= used s s' /\ (takes sch (TB b) -> size y <= used s s')).
  { intros b v0 s y s' SI W H. apply bind_ok in H as (w & NB & H). apply bind_ok in H as ([y1 s1] & RD & H). apply ok_inj in H. injection H as <- <-.
    destruct (num_bits_range _ _ _ _ NB) as [W0 T]. destruct (scalar_fair E b w s y1 s1 W W0 RD) as (X & Y & Z). split; [exact X|]. split; [exact Y|]. intros TK. apply Z, T, TK. }
  destruct d as [P F|P sel cases dflt|P F|b items|b values]; cbn [def_params def_fields] in *; cbn [def_impl]; (split; [try exact DEF|]).
  - intros ctx v0 s v x s' H. cbn [struct_impl oi_read] in H. destruct v0; cbn [with_obj] in H; try discriminate. apply bind_ok in H as ([[fs' c1] s1] & H1 & H). apply ok_inj in H. injection H as <- _ <-.
    apply (fields_fit m l BELOW ANY _ _ LF' LF C3) in H1 as (X & Y & Z). unfold within. rewrite !size_obj, BASE.
    assert (Z.of_nat (length F) * (2 + dmax l + n' * c + base l) <= n' * (2 + dmax l + n' * c + base l)) by (unfold n' at 2; apply Z.mul_le_mono_nonneg_r; lia).
    split; [lia|]. split; [exact Y|]. intros (args & T). assert (TK : exists f, In f F /\ f_clause f = None /\ (f_optional f = true \/ (exists p, f_array f = Some (mkAS p None)) \/ (f_array f = None /\ takes sch (f_ty f)))).
    { inversion T; subst; try congruence. match goal with H : nth_error sch n = Some (DStruct _ _) |- _ => rewrite H in ND; injection ND as -> -> end. eauto. }
    destruct (Z TK). lia.
  - intros ctx v0 s v x s' H. cbn [choice_impl oi_read] in H. destruct v0 as [ | | | | | | | |s0 ps fs]; cbn [with_obj] in H; try discriminate.
    apply bind_ok in H as (a & H1 & H). apply bind_ok in H1 as (z & _ & H1). apply ok_inj in H1. subst a.
    assert (NT : forall args, ~ takes sch (TRef n args)) by (intros args T; inversion T; congruence).
    destruct (choice_arm 0 cases dflt z) as [[[i f] force]|] eqn:ARM.
    + apply bind_ok in H as ([[y c1] s1] & H1 & H). apply ok_inj in H. injection H as <- _ <-. cbn [andb] in H1.
      assert (INF : In f (choice_fields cases dflt)).
      { clear - ARM. revert ARM. generalize O. unfold choice_fields. induction cases as [|[cs fo] cases IH]; intros k ARM; cbn [choice_arm flat_map snd app] in *.
        - destruct dflt as [[f'|]|]; try discriminate. injection ARM as _ <- _. left. reflexivity.
        - destruct (existsb (Z.eqb z) cs); [destruct fo; [|discriminate]; injection ARM as _ <- _; left; reflexivity|]. rewrite <- app_assoc. apply in_or_app. right. exact (IH _ ARM). }
      apply (field_fit m l BELOW ANY) in H1 as (X & Y & _);
        [|exact (proj1 (Forall_forall _ _) LF' f INF)|exact (proj1 (Forall_forall _ _) LF f INF)|exact (proj1 (Forall_forall _ _) C3 f INF)].
      unfold within. rewrite !size_obj. split; [lia|]. split; [exact Y|]. intros (args & T). destruct (NT args T).
    + apply ok_inj in H. injection H as <- _ <-. unfold within, used. split; [lia|]. split; [lia|]. intros (args & T). destruct (NT args T).
  - intros ctx v0 s v x s' H. cbn [union_impl oi_read] in H. destruct v0 as [ | | | | | | | |s0 ps fs]; cbn [with_obj] in H; try discriminate.
    apply bind_ok in H as ([z s1] & H1 & H). apply bind_ok in H1 as ([z1 s2] & V & H1). apply varsize_used in V. destruct (z1 <? zlen F); [|discriminate]. apply ok_pair_inj in H1 as [<- <-].
    unfold get in H. apply bind_ok in H as (f & GF & H). destruct (nth_error F (Z.to_nat z1)) as [f0|] eqn:NF; [|discriminate]. apply ok_inj in GF. subst f0. apply nth_error_In in NF.
    apply bind_ok in H as ([[y c1] s3] & H1 & H). apply ok_inj in H. injection H as <- _ <-.
    apply (field_fit m l BELOW ANY) in H1 as (X & Y & _);
        [|exact (proj1 (Forall_forall _ _) LF' f NF)|exact (proj1 (Forall_forall _ _) LF f NF)|exact (proj1 (Forall_forall _ _) C3 f NF)].
    unfold within. rewrite !size_obj. unfold used in *. split; [nia|]. split; [lia|]. intros _. split; [nia|lia].
  - cbn [enum_impl oi_default]. intros v H. destruct items; [discriminate|]. apply ok_inj in H. subst v. cbn [size]. apply dmax_pos.
  - intros ctx v0 s v x s' H. cbn [enum_impl oi_read decode_type andb] in H. destruct EB as [SI W]. apply bind_ok in H as ([[y c1] s1] & H1 & H).
    assert (c1 = ctx) by (apply bind_ok in H1 as (w & _ & H1); apply bind_ok in H1 as ([y1 s2] & _ & H1); apply ok_inj in H1; congruence). subst c1.
    apply (NUM b ctx s y s1 SI W) in H1 as (X & Y & Z). apply bind_ok in H as (z & _ & H). apply bind_ok in H as (e & EN & H). apply ok_inj in H. injection H as <- _ <-.
    unfold enum_try_from in EN. destruct (existsb _ _); [|discriminate]. apply ok_inj in EN. subst e. pose proof (size_pos v0). cbn [size]. pose proof (base_pos (S l)). pose proof (size_pos y). unfold within. split; [nia|]. split; [exact Y|].
    intros (args & T). assert (TB' : takes sch (TB b)) by (inversion T; subst; congruence). specialize (Z TB'). split; [nia|lia].
  - cbn [bitmask_impl oi_default]. intros v H. destruct values; [discriminate|]. apply ok_inj in H. subst v. cbn [size]. apply dmax_pos.
  - intros ctx v0 s v x s' H. cbn [bitmask_impl oi_read decode_type andb] in H. destruct EB as [SI W].
    assert (x = ctx) by (apply bind_ok in H as (w & _ & H1); apply bind_ok in H1 as ([y1 s2] & _ & H1); apply ok_inj in H1; congruence). subst x.
    apply (NUM b ctx s v s' SI W) in H as (X & Y & Z). pose proof (size_pos v0). pose proof (base_pos (S l)). pose proof (size_pos v). split; [nia|]. split; [exact Y|].
    intros (args & T). assert (TB' : takes sch (TB b)) by (inversion T; subst; congruence). specialize (Z TB'). split; [nia|lia].
Qed.
End Lean.

Lemma bytes_lean sch : lean sch -> forall n, exists A K, forall g E data v, from_bytes (impl_at E sch g n) data = Ok v -> size v <= A + K * zlen data.
Proof.
  intros (rank & c & L) n. destruct (all_counted sch) as (N & N1 & CN).
  assert (L' : forall n d, nth_error sch n = Some d ->
    Forall (below rank n) (def_params d ++ def_fields d) /\ Forall (lean_field sch (Z.max 0 c)) (def_fields d)
    /\ match d with DEnum b _ | DBitmask b _ => static_int b /\ width_ok b | _ => True end).
  { intros k d H. destruct (L k d H) as (X & Y & Z). split; [exact X|]. split; [|exact Z]. revert Y. apply Forall_impl. intros f (P & Q). split; [exact P|].
    destruct (f_ty f); [exact Q|]. revert Q. apply Forall_impl. intros a Q i ps fs v V. specialize (Q i ps fs v V). lia. }
  destruct (ranks_bounded rank (length sch)) as (R & RB). assert (RN : (n < length sch)%nat -> (rank n < S (rank n))%nat) by lia.
  pose proof (fun E g => objects_fit sch rank (Z.max 0 c) N L' N1 CN ltac:(lia) R RB E g (S (rank n)) n RN) as F.
  set (D := dmax N (S (rank n))) in *. set (A := base (Z.max 0 c) N (S (rank n))) in *.
  pose proof (K_pos (Z.max 0 c) N N1 ltac:(lia) R) as KP. set (K := K (Z.max 0 c) N R) in *.
  exists (D + A), (8 * K). intros g E data v H. destruct (F E g) as [DF RD]. unfold from_bytes in H. apply bind_ok in H as (d & H1 & H). apply bind_ok in H as ([[v1 x] r'] & H2 & H). apply ok_inj in H. subst v1.
  apply DF in H1. apply RD in H2 as (X & Y & _). unfold used in *. cbn [r_rest] in *.
  assert (zlen (bits_of_data data) = 8 * zlen data) as B by (unfold zlen; rewrite P_Ext2.bits_of_data_length; lia). rewrite B in *.
  fold A K in X. fold D in H1. pose proof (zlen_nonneg _ (r_rest r')). nia.
Qed.
