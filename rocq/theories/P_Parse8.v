(** Proofs about the parser (C72): what is read is grouped as the levels demand. *)
From Coq Require Import ZArith List Bool String Lia.
From Verif Require Import M_Base M_Expr M_Lit M_Visit M_Parse S_Parse P_Parse P_Parse2 P_Parse3 P_Parse4 P_Parse5 P_Parse6.
From Verif Require S_Visit.
Import ListNotations.
Local Open Scope list_scope.
Open Scope nat_scope.

(** ** Every expression can be grouped *)

(** A suffix belongs to the last operand. *)
Fixpoint at_last (w : pexpr -> pexpr) (e : pexpr) : pexpr :=
  match e with
  | PUn o a => PUn o (at_last w a)
  | PBin o a b => PBin o a (at_last w b)
  | PTern c a b => PTern c a (at_last w b)
  | _ => w e
  end.
Lemma at_last_ok w tl : (forall a, level (w a) = 0) -> (forall a, level a = 0 -> grouped a -> grouped (w a)) ->
  (forall a, expr_tokens (w a) = expr_tokens a ++ tl) ->
  forall e, grouped e -> grouped (at_last w e) /\ level (at_last w e) = level e /\ expr_tokens (at_last w e) = expr_tokens e ++ tl.
Proof.
  intros W0 W1 W2. induction e; intros G; cbn [at_last];
    try (split; [apply W1; [reflexivity|exact G]|split; [apply W0|apply W2]]); cbn [grouped level expr_tokens] in *.
  - destruct G as (L & G). destruct (IHe G) as (X & Y & Z). rewrite Y, Z, app_assoc. auto.
  - destruct G as (L1 & L2 & G1 & G2). destruct (IHe2 G2) as (X & Y & Z). rewrite Y, Z, <- !app_assoc. auto.
  - destruct G as (L & G1 & G2 & G3). destruct (IHe3 G3) as (X & Y & Z). rewrite Z, <- !app_assoc. auto.
Qed.
(** A prefix belongs to the first operand. *)
Fixpoint at_first (o : unop) (e : pexpr) : pexpr :=
  match e with
  | PBin o' a b => PBin o' (at_first o a) b
  | PTern c a b => PTern (at_first o c) a b
  | _ => PUn o e
  end.
Lemma binop_level_2 o : 2 <= binop_level o <= 11. Proof. destruct o; cbn; lia. Qed.
Lemma at_first_ok o : forall e, grouped e ->
  grouped (at_first o e) /\ level (at_first o e) <= Nat.max 1 (level e) /\ expr_tokens (at_first o e) = unop_tokens o ++ expr_tokens e.
Proof.
  induction e; intros G; cbn [at_first];
    try (split; [split; [cbn; lia|exact G]|split; [cbn; lia|reflexivity]]); cbn [grouped level expr_tokens] in *.
  - destruct G as (L1 & L2 & G1 & G2). destruct (IHe1 G1) as (X & Y & Z). pose proof (binop_level_2 o0).
    rewrite Z, <- !app_assoc. repeat split; auto; lia.
  - destruct G as (L & G1 & G2 & G3). destruct (IHe1 G1) as (X & Y & Z). rewrite Z, <- !app_assoc. repeat split; auto; lia.
Qed.
(** An operator with a right operand that binds tighter. *)
Fixpoint attach (o : binop) (x y : pexpr) : pexpr :=
  if level x <=? binop_level o then PBin o x y
  else match x with
       | PBin o' a b => PBin o' a (attach o b y)
       | PTern c a b => PTern c a (attach o b y)
       | _ => PBin o x y
       end.
Lemma attach_ok o y : grouped y -> level y < binop_level o -> forall x, grouped x ->
  grouped (attach o x y) /\ level (attach o x y) <= Nat.max (level x) (binop_level o)
  /\ expr_tokens (attach o x y) = expr_tokens x ++ binop_tokens o ++ expr_tokens y.
Proof.
  intros Gy Ly. pose proof (binop_level_2 o) as Lo.
  assert (B : forall x, grouped x -> level x <= binop_level o ->
    grouped (PBin o x y) /\ level (PBin o x y) <= Nat.max (level x) (binop_level o)
    /\ expr_tokens (PBin o x y) = expr_tokens x ++ binop_tokens o ++ expr_tokens y).
  { intros x G L. cbn [grouped level expr_tokens]. repeat split; auto. lia. }
  induction x; intros G; unfold attach; fold attach;
    try (apply B; [exact G|cbn; lia]);
    match goal with |- context[?l <=? ?k] => destruct (Nat.leb_spec l k) as [L|L] end; try (apply B; assumption);
    try (exfalso; cbn in L; lia).
  - cbn [grouped level expr_tokens] in *. destruct G as (L1 & L2 & G1 & G2). destruct (IHx2 G2) as (X & Y & Z).
    rewrite Z, <- !app_assoc. repeat split; auto; lia.
  - cbn [grouped level expr_tokens] in *. destruct G as (L1 & G1 & G2 & G3). destruct (IHx3 G3) as (X & Y & Z).
    rewrite Z, <- !app_assoc. repeat split; auto; lia.
Qed.
(** The conditional operator. *)
Fixpoint conditional (z a b : pexpr) : pexpr :=
  match z with PTern c a0 b0 => PTern c a0 (conditional b0 a b) | _ => PTern z a b end.
Lemma conditional_ok a b : grouped a -> grouped b -> forall z, grouped z ->
  grouped (conditional z a b) /\ expr_tokens (conditional z a b) = expr_tokens z ++ [K "?"] ++ expr_tokens a ++ [K ":"] ++ expr_tokens b.
Proof.
  intros Ga Gb. induction z; intros G; cbn [conditional];
    try (split; [split; [cbn [level]; try pose proof (binop_level_2 o); lia|auto]|reflexivity]).
  cbn [grouped expr_tokens] in *. destruct G as (L & G1 & G2 & G3). destruct (IHz3 G3) as (X & Z).
  rewrite Z, <- !app_assoc. auto.
Qed.
(** A binary operator. *)
Fixpoint joined (o : binop) (x y : pexpr) : pexpr :=
  if level y <? binop_level o then attach o x y
  else match y with
       | PBin o' c d => attach o' (joined o x c) d
       | PTern c a b => conditional (joined o x c) a b
       | _ => attach o x y
       end.
Lemma joined_ok o x : grouped x -> forall y, grouped y ->
  grouped (joined o x y) /\ expr_tokens (joined o x y) = expr_tokens x ++ binop_tokens o ++ expr_tokens y.
Proof.
  intros Gx. pose proof (binop_level_2 o) as Lo.
  assert (A : forall y, grouped y -> level y < binop_level o ->
    grouped (attach o x y) /\ expr_tokens (attach o x y) = expr_tokens x ++ binop_tokens o ++ expr_tokens y).
  { intros y G L. destruct (attach_ok o y G L x Gx) as (X & _ & Z). auto. }
  induction y; intros G; unfold joined; fold joined;
    try (apply A; [exact G|cbn; lia]);
    match goal with |- context[?l <? ?k] => destruct (Nat.ltb_spec l k) as [L|L] end; try (apply A; assumption);
    try (exfalso; cbn in L; lia).
  - cbn [grouped level expr_tokens] in *. destruct G as (L1 & L2 & G1 & G2). destruct (IHy1 G1) as (X & Z).
    destruct (attach_ok o0 y2 G2 L2 _ X) as (X2 & _ & Z2). rewrite Z2, Z, <- !app_assoc. auto.
  - cbn [grouped level expr_tokens] in *. destruct G as (L1 & G1 & G2 & G3). destruct (IHy1 G1) as (X & Z).
    destruct (conditional_ok y2 y3 G2 G3 _ X) as (X2 & Z2). rewrite Z2, Z, <- !app_assoc. auto.
Qed.
Lemma regroup : forall e, exists e', expr_tokens e' = expr_tokens e /\ grouped e'.
Proof.
  induction e;
    repeat match goal with H : exists _, _ |- _ => destruct H as (? & ? & ?) end.
  - exists (PParen x). cbn [expr_tokens grouped]. rewrite H. auto.
  - destruct (at_last_ok PCall [K "("; K ")"]) with (e := x) as (A & _ & C); try reflexivity; [cbn; auto|auto|].
    exists (at_last PCall x). rewrite C, H. auto.
  - destruct (at_last_ok (fun a => PElem a x) ([K "["] ++ expr_tokens x ++ [K "]"])) with (e := x0) as (A & _ & C); try reflexivity; [cbn; auto|auto|].
    exists (at_last (fun a => PElem a x) x0). rewrite C, H, H1. auto.
  - destruct (at_last_ok (fun a => PDot a m) [K "."; I m]) with (e := x) as (A & _ & C); try reflexivity; [cbn; auto|auto|].
    exists (at_last (fun a => PDot a m) x). rewrite C, H. auto.
  - exists (PIsset x0 x). cbn [expr_tokens grouped]. rewrite H, H1. auto.
  - exists (PLengthof x). cbn [expr_tokens grouped]. rewrite H. auto.
  - exists (PValueof x). cbn [expr_tokens grouped]. rewrite H. auto.
  - exists (PNumbits x). cbn [expr_tokens grouped]. rewrite H. auto.
  - destruct (at_first_ok o x H0) as (A & _ & C). exists (at_first o x). rewrite C, H. auto.
  - destruct (joined_ok o x0 H2 x H0) as (A & C). exists (joined o x0 x). rewrite C, H, H1. auto.
  - destruct (conditional_ok x0 x H2 H0 x1 H4) as (A & C). exists (conditional x1 x0 x). rewrite C, H, H1, H3. auto.
  - eexists (PLit _ _). split; [reflexivity|exact Logic.I].
  - exists PIndex. cbn. auto.
  - exists (PId s). cbn. auto.
Qed.

(** ** Every tree can be grouped *)

(** [a] can be replaced by something that is written with the same tokens and is in [Q]. *)
Definition same_as {A} (f : A -> list token) (Q : A -> Prop) (a : A) : Prop := exists b, f b = f a /\ Q b.
Lemma list_same {A} (f : A -> list token) Q l : Forall (same_as f Q) l ->
  exists l', Forall2 (fun a b => f b = f a) l l' /\ Forall Q l'.
Proof.
  induction 1 as [|a l (b & E & H) _ (l' & IH & F)]; [exists []; auto|]. exists (b :: l'). auto.
Qed.
Lemma flat_same {A} (f : A -> list token) l l' : Forall2 (fun a b => f b = f a) l l' -> flat_map f l' = flat_map f l.
Proof. induction 1 as [|a b l l' E _ IH]; [reflexivity|]. cbn [flat_map]. now rewrite E, IH. Qed.
Lemma separated_same {A} (f : A -> list token) l l' : Forall2 (fun a b => f b = f a) l l' -> separated f l' = separated f l.
Proof.
  intros H. destruct H as [|a b l l' E H]; [reflexivity|]. rewrite !separated_cons, E. f_equal.
  apply flat_same. induction H as [|c d l l' E2 H IH]; constructor; auto. now rewrite E2.
Qed.
Lemma nonempty_same {A} (P : A -> A -> Prop) l l' : Forall2 P l l' -> l <> [] -> l' <> [].
Proof. intros [|]; [congruence|discriminate]. Qed.
Lemma many_same {A} (f : A -> list token) Q l : Forall (same_as f Q) l -> same_as (flat_map f) (Forall Q) l.
Proof. intros H. apply list_same in H as (l' & E & F). exists l'. split; [now apply flat_same|exact F]. Qed.
Lemma many1_same {A} (f : A -> list token) Q l : l <> [] -> Forall (same_as f Q) l -> same_as (flat_map f) (fun l => l <> [] /\ Forall Q l) l.
Proof.
  intros N H. apply list_same in H as (l' & E & F). exists l'. split; [now apply flat_same|split; [|exact F]]. eapply nonempty_same; eauto.
Qed.
Lemma commas_same {A} (f : A -> list token) Q l : l <> [] -> Forall (same_as f Q) l -> same_as (separated f) (fun l => l <> [] /\ Forall Q l) l.
Proof.
  intros N H. apply list_same in H as (l' & E & F). exists l'. split; [now apply separated_same|split; [|exact F]]. eapply nonempty_same; eauto.
Qed.
Lemma expr_same e : same_as expr_tokens grouped e.
Proof. exact (regroup e). Qed.
Lemma behind_same s x : same_as (behind s) (opt_wf grouped) x.
Proof.
  destruct x as [e|]; [|exists None; split; [reflexivity|exact Logic.I]]. destruct (expr_same e) as (e' & E & G).
  exists (Some e'). split; [cbn; now rewrite E|exact G].
Qed.
Lemma range_same x : same_as range_tokens (opt_wf (opt_wf grouped)) x.
Proof.
  destruct x as [[e|]|]; [|exists (Some None); split; [reflexivity|exact Logic.I]|exists None; split; [reflexivity|exact Logic.I]].
  destruct (expr_same e) as (e' & E & G). exists (Some (Some e')). split; [cbn; now rewrite E|exact G].
Qed.
Lemma align_same x : same_as align_tokens (opt_wf grouped) x.
Proof.
  destruct x as [e|]; [|exists None; split; [reflexivity|exact Logic.I]]. destruct (expr_same e) as (e' & E & G).
  exists (Some e'). split; [cbn; now rewrite E|exact G].
Qed.
Lemma offset_same x : same_as offset_tokens (fun y => opt_wf grouped y /\ (y = None -> x = None)) x.
Proof.
  destruct x as [e|]; [|exists None; split; [reflexivity|split; [exact Logic.I|auto]]]. destruct (expr_same e) as (e' & E & G).
  exists (Some e'). split; [cbn; now rewrite E|split; [exact G|discriminate]].
Qed.
Lemma arg_same a : same_as arg_tokens arg_wf a.
Proof.
  destruct a as [s|e]; [exists (PExplicit s); split; [reflexivity|exact Logic.I]|]. destruct (expr_same e) as (e' & E & G).
  exists (PArg e'). auto.
Qed.
Lemma all_same {A} (f : A -> list token) Q (l : list A) : (forall a, same_as f Q a) -> Forall (same_as f Q) l.
Proof. intros H. apply Forall_forall. auto. Qed.
Lemma inst_same t : inst_shape t -> inst_plain t -> same_as inst_tokens (fun u => inst_wf u /\ pi_type u = pi_type t) t.
Proof.
  intros (W & S) P. destruct t as [t sf]. cbn [pi_type pi_suffix] in *. unfold inst_plain in P. cbn [pi_type pi_suffix] in P.
  destruct sf as [|l|e].
  - exists (PInst t PNone). split; [reflexivity|]. split; [split; [exact W|exact Logic.I]|reflexivity].
  - destruct (commas_same _ _ l S (all_same _ _ l arg_same)) as (l' & E & N & F).
    exists (PInst t (PArgs l')). split; [|split; [split; [exact W|exact (conj N F)]|reflexivity]].
    unfold inst_tokens. cbn [pi_type pi_suffix suffix_tokens]. now rewrite E.
  - destruct (expr_same e) as (e' & E & G). exists (PInst t (PLength e')).
    split; [|split; [split; [exact W|exact (conj G (P e eq_refl))]|reflexivity]].
    unfold inst_tokens. cbn [pi_type pi_suffix suffix_tokens]. now rewrite E.
Qed.
Lemma member_same m : inst_shape (pm_inst m) -> inst_plain (pm_inst m) ->
  same_as member_tokens (fun u => member_wf u /\ pi_type (pm_inst u) = pi_type (pm_inst m)) m.
Proof.
  intros S P. destruct (inst_same _ S P) as (t & E & W & ET). destruct (range_same (pm_range m)) as (r & Er & Wr).
  exists (PMember (pm_packed m) (pm_implicit m) t (pm_name m) r). split; [|split; [split; [exact W|exact Wr]|exact ET]].
  unfold member_tokens. cbn [pm_packed pm_implicit pm_inst pm_name pm_range]. now rewrite E, Er.
Qed.
Lemma constraint_same x : same_as (behind ":") (fun y => opt_wf grouped y /\
  (forall e, y = Some e -> exists e0, x = Some e0 /\ expr_tokens e0 = expr_tokens e)) x.
Proof.
  destruct x as [e|]; [|exists None; split; [reflexivity|split; [exact Logic.I|discriminate]]]. destruct (expr_same e) as (e' & E & G).
  exists (Some e'). split; [cbn; now rewrite E|split; [exact G|]]. intros e2 X. injection X as <-. exists e. auto.
Qed.
Lemma field_same f : field_shape f -> inst_plain (pm_inst (pf_member f)) -> field_plain f -> same_as field_tokens field_wf f.
Proof.
  intros S P C. destruct (member_same _ S P) as (m & Em & Wm & ET). destruct f as [al off ex op m0 i c con].
  unfold field_plain in C. cbn [pf_align pf_offset pf_extend pf_optional pf_member pf_init pf_clause pf_constraint] in *.
  destruct (align_same al) as (al' & Ea & Wa). destruct (offset_same off) as (off' & Eo & Wo & No).
  destruct (behind_same "=" i) as (i' & Ei & Wi). destruct (behind_same "if" c) as (c' & Ec & Wc).
  destruct (constraint_same con) as (con' & Ek & Wk & Nk).
  exists (PField al' off' ex op m i' c' con'). split.
  - unfold field_tokens. cbn [pf_align pf_offset pf_extend pf_optional pf_member pf_init pf_clause pf_constraint].
    now rewrite Ea, Eo, Em, Ei, Ec, Ek.
  - unfold field_wf. cbn [pf_align pf_offset pf_extend pf_optional pf_member pf_init pf_clause pf_constraint].
    refine (conj Wa (conj Wo (conj Wm (conj Wi (conj Wc (conj Wk _)))))).
    intros e X Y T (t & x & r & R). destruct (Nk e Y) as (e0 & Z & Q). rewrite ET in T.
    apply (C e0 (No X) Z T). exists t, x, r. now rewrite Q.
Qed.
Lemma cfield_same f : cfield_shape f -> inst_plain (pm_inst (pc_member f)) -> same_as cfield_tokens cfield_wf f.
Proof.
  intros S P. destruct (member_same _ S P) as (m & Em & Wm & _). destruct (behind_same ":" (pc_constraint f)) as (c & Ec & Wc).
  exists (PCField m c). split; [|exact (conj Wm Wc)]. unfold cfield_tokens. cbn [pc_member pc_constraint]. now rewrite Em, Ec.
Qed.
Lemma opt_cfield_same f : opt_wf cfield_shape f -> Forall inst_plain (flat_map S_Visit.cfield_insts (S_Visit.list_of f)) ->
  same_as opt_cfield_tokens (opt_wf cfield_wf) f.
Proof.
  destruct f as [f|]; intros S P; [|exists None; split; [reflexivity|exact Logic.I]].
  cbn in P. inversion P as [|? ? P1 _]. destruct (cfield_same f S P1) as (g & E & W). exists (Some g). auto.
Qed.
Lemma case_same c : case_shape c -> Forall inst_plain (flat_map S_Visit.cfield_insts (S_Visit.list_of (snd c))) -> same_as case_tokens case_wf c.
Proof.
  intros (N & S) P. destruct (opt_cfield_same _ S P) as (f & Ef & Wf).
  assert (X : Forall (same_as expr_tokens grouped) (fst c)) by apply all_same, expr_same.
  apply list_same in X as (l & E & F). exists (l, f). split.
  - unfold case_tokens. cbn [fst snd]. rewrite Ef. f_equal. apply flat_same.
    clear - E. induction E as [|a b l l' E _ IH]; constructor; [now rewrite E|exact IH].
  - split; [|split; [exact F|exact Wf]]. cbn [fst]. eapply nonempty_same; eauto.
Qed.
Lemma fun_same g : fun_shape g -> same_as fun_tokens fun_wf g.
Proof.
  intros S. destruct (expr_same (pfn_body g)) as (e & E & G). exists (PFun (pfn_type g) (pfn_name g) e).
  split; [unfold fun_tokens; cbn [pfn_type pfn_name pfn_body]; now rewrite E|exact (conj S G)].
Qed.
Lemma funs_same gs : Forall fun_shape gs -> same_as (flat_map fun_tokens) (Forall fun_wf) gs.
Proof. intros H. apply many_same. eapply Forall_impl; [|exact H]. apply fun_same. Qed.
Lemma item_same i : same_as item_tokens (fun i => opt_wf grouped (pit_value i)) i.
Proof.
  destruct (behind_same "=" (pit_value i)) as (v & E & W). exists (PItem (pit_marker i) (pit_name i) v).
  split; [unfold item_tokens; cbn [pit_marker pit_name pit_value]; now rewrite E|exact W].
Qed.
Lemma mask_item_same i : same_as mask_item_tokens (fun i => opt_wf grouped (snd i)) i.
Proof.
  destruct (behind_same "=" (snd i)) as (v & E & W). exists (fst i, v).
  split; [unfold mask_item_tokens; cbn [fst snd]; now rewrite E|exact W].
Qed.
Lemma forall_map {A B} (P : B -> Prop) (f : A -> B) l : Forall P (map f l) -> Forall (fun a => P (f a)) l.
Proof. intros H. now rewrite Forall_map in H. Qed.
Lemma forall_flat {A B} (P : B -> Prop) (f : A -> list B) l : Forall P (flat_map f l) -> Forall (fun a => Forall P (f a)) l.
Proof.
  induction l as [|a l IH]; intros H; [constructor|]. cbn [flat_map] in H. apply Forall_app in H as (H1 & H2). auto.
Qed.
Lemma forall_both {A} (P Q S : A -> Prop) l : (forall a, P a -> Q a -> S a) -> Forall P l -> Forall Q l -> Forall S l.
Proof. intros H. induction 1; intros F; inversion F; auto. Qed.
Lemma other_same o : other_shape o -> Forall inst_plain (S_Visit.other_insts o) -> same_as other_tokens other_wf o.
Proof.
  destruct o as [x l|x tps u fl c w|x fl|x ms|x ms]; cbn [other_shape S_Visit.other_insts]; intros S P.
  - assert (X : Forall (same_as (fun e => [K "rule"] ++ expr_tokens e ++ [K ";"]) grouped) l).
    { apply all_same. intros e. destruct (expr_same e) as (e' & E & G). exists e'. rewrite E. auto. }
    apply many_same in X as (l' & E & F). exists (PRules x l'). split; [cbn [other_tokens]; now rewrite E|exact F].
  - apply forall_map in P.
    assert (X : Forall (same_as tfield_tokens (fun f => inst_wf (ptf_inst f) /\ opt_wf grouped (ptf_sql f))) fl).
    { eapply forall_both; [|exact S|exact P]. intros f Sf Pf. destruct (inst_same _ Sf Pf) as (t & E & W & _).
      destruct (behind_same "sql" (ptf_sql f)) as (s & Es & Ws). exists (PTField (ptf_virtual f) t (ptf_name f) s).
      split; [unfold tfield_tokens; cbn [ptf_virtual ptf_inst ptf_name ptf_sql]; now rewrite E, Es|exact (conj W Ws)]. }
    apply many_same in X as (fl' & E & F).
    assert (Y : same_as (fun c => match c with Some e => [K "sql"] ++ expr_tokens e ++ [K ";"] | None => [] end) (opt_wf grouped) c).
    { destruct c as [e|]; [|exists None; split; [reflexivity|exact Logic.I]]. destruct (expr_same e) as (e' & Ee & G).
      exists (Some e'). rewrite Ee. auto. }
    destruct Y as (c' & Ec & Wc). exists (PTable x tps u fl' c' w). split; [|exact (conj F Wc)].
    cbn [other_tokens]. now rewrite E, Ec.
  - destruct S as (N & S). apply forall_map in P.
    assert (X : Forall (same_as (fun f => inst_tokens (fst f) ++ [I (snd f); K ";"]) (fun f => inst_wf (fst f))) fl).
    { eapply forall_both; [|exact S|exact P]. intros f Sf Pf. destruct (inst_same _ Sf Pf) as (t & E & W & _).
      exists (t, snd f). cbn [fst snd]. rewrite E. auto. }
    apply (many1_same _ _ _ N) in X as (fl' & E & F). exists (PDatabase x fl'). split; [cbn [other_tokens]; now rewrite E|exact F].
  - exists (PService x ms). auto.
  - assert (X : Forall (same_as message_tokens (fun m => grouped (pmg_topic m) /\ type_wf (pmg_type m))) ms).
    { eapply Forall_impl; [|exact S]. intros m W. destruct (expr_same (pmg_topic m)) as (e & E & G).
      exists (PMessage (pmg_access m) e (pmg_type m) (pmg_name m)).
      split; [unfold message_tokens; cbn [pmg_access pmg_topic pmg_type pmg_name]; now rewrite E|exact (conj G W)]. }
    apply many_same in X as (ms' & E & F). exists (PPubsub x ms'). split; [cbn [other_tokens]; now rewrite E|exact F].
Qed.
Lemma decl_same d : decl_shape d -> decl_plain d -> same_as decl_tokens decl_wf d.
Proof.
  destruct d as [x tps ps fl gs|x tps ps sel cs d gs|x tps ps fl gs|t x l c|t x l c|t x e|t x|t x|o];
    cbn [decl_shape]; intros S (P & Q); cbn [S_Visit.decl_insts] in P.
  - destruct S as (Wp & Sf & Sg). apply Forall_app in P as (_ & P). apply Forall_app in P as (P & _). apply forall_map in P.
    assert (X : Forall (same_as field_tokens field_wf) fl).
    { rewrite Forall_forall in *. intros f M. apply field_same; auto. }
    apply many_same in X as (fl' & Ef & Wf). destruct (funs_same gs Sg) as (gs' & Eg & Wg).
    exists (PStruct x tps ps fl' gs'). split; [cbn [decl_tokens]; now rewrite Ef, Eg|exact (conj Wp (conj Wf Wg))].
  - destruct S as (N & Wp & Sc & Sd & Sg). apply Forall_app in P as (_ & P). apply Forall_app in P as (P1 & P).
    apply Forall_app in P as (P2 & _). apply forall_flat in P1.
    assert (X : Forall (same_as case_tokens case_wf) cs).
    { eapply forall_both; [|exact Sc|exact P1]. apply case_same. }
    apply many_same in X as (cs' & Ec & Wc). destruct (funs_same gs Sg) as (gs' & Eg & Wg).
    destruct (expr_same sel) as (sel' & Es & Ws).
    assert (Y : same_as default_tokens (opt_wf (opt_wf cfield_wf)) d).
    { destruct d as [f|]; [|exists None; split; [reflexivity|exact Logic.I]].
      cbn [S_Visit.list_of flat_map] in P2. rewrite app_nil_r in P2.
      destruct (opt_cfield_same f Sd P2) as (f' & Ef & Wf). exists (Some f').
      split; [cbn [default_tokens]; now rewrite Ef|exact Wf]. }
    destruct Y as (d' & Ed & Wd). exists (PChoice x tps ps sel' cs' d' gs').
    split; [cbn [decl_tokens]; now rewrite Es, Ec, Ed, Eg|exact (conj N (conj Wp (conj Ws (conj Wc (conj Wd Wg)))))].
  - destruct S as (Wp & Sf & Sg). apply Forall_app in P as (_ & P). apply Forall_app in P as (P & _). apply forall_flat in P.
    assert (X : Forall (same_as (fun f => cfield_tokens f ++ [K ";"]) cfield_wf) fl).
    { eapply forall_both; [|exact Sf|exact P]. intros f S1 P1. inversion P1 as [|? ? P2 _].
      destruct (cfield_same f S1 P2) as (g & E & W). exists g. rewrite E. auto. }
    apply many_same in X as (fl' & Ef & Wf). destruct (funs_same gs Sg) as (gs' & Eg & Wg).
    exists (PUnion x tps ps fl' gs'). split; [cbn [decl_tokens]; now rewrite Ef, Eg|exact (conj Wp (conj Wf Wg))].
  - destruct S as (S & N). inversion P as [|? ? P1 _]. destruct (inst_same t S P1) as (t' & Et & Wt & _).
    destruct (commas_same _ _ l N (all_same _ _ l item_same)) as (l' & El & Nl & Fl).
    exists (PEnum t' x l' c). split; [cbn [decl_tokens]; now rewrite Et, El|exact (conj Wt (conj Nl Fl))].
  - destruct S as (S & N). inversion P as [|? ? P1 _]. destruct (inst_same t S P1) as (t' & Et & Wt & _).
    destruct (commas_same _ _ l N (all_same _ _ l mask_item_same)) as (l' & El & Nl & Fl).
    exists (PMask t' x l' c). split; [cbn [decl_tokens]; now rewrite Et, El|exact (conj Wt (conj Nl Fl))].
  - inversion P as [|? ? P1 _]. destruct (inst_same t S P1) as (t' & Et & Wt & _). destruct (expr_same e) as (e' & Ee & Ge).
    exists (PConst t' x e'). split; [cbn [decl_tokens]; now rewrite Et, Ee|exact (conj Wt Ge)].
  - exists (PSubtype t x). auto.
  - exists (PInstantiate t x). auto.
  - destruct (other_same o S P) as (o' & E & W). exists (POther o'). auto.
Qed.
(** What is read is grouped, and nothing else is read. *)
Lemma parse_formed ts f : parse ts = Parsed f -> file_plain f -> file_wf f.
Proof.
  intros H P. pose proof (parse_read ts f H) as (E & Wn & Wi & S).
  assert (X : Forall (same_as decl_tokens decl_wf) (pl_decls f)) by (eapply forall_both; [|exact S|exact P]; apply decl_same).
  apply many_same in X as (ds & Ed & Wd).
  assert (W : file_wf (PFile (pl_version f) (pl_package f) (pl_imports f) ds)) by exact (conj Wn (conj Wi Wd)).
  pose proof (parse_back _ W) as B.
  replace (file_tokens (PFile (pl_version f) (pl_package f) (pl_imports f) ds)) with ts in B.
  - rewrite H in B. injection B as ->. exact W.
  - rewrite <- E. unfold file_tokens. cbn [pl_version pl_package pl_imports pl_decls]. now rewrite Ed.
Qed.
Lemma inst_wf_plain t : inst_wf t -> inst_plain t.
Proof. intros (_ & H) e E. rewrite E in H. apply H. Qed.
Lemma none_plain t : inst_plain (S_Visit.plain_inst t).
Proof. intros e. discriminate. Qed.
Lemma none_all {A} (f : A -> ptype) l : Forall inst_plain (map (fun a => S_Visit.plain_inst (f a)) l).
Proof. apply Forall_map, Forall_forall. intros. apply none_plain. Qed.
Lemma cfield_insts_plain f : opt_wf cfield_wf f -> Forall inst_plain (flat_map S_Visit.cfield_insts (S_Visit.list_of f)).
Proof. destruct f as [f|]; intros H; [|constructor]. constructor; [apply inst_wf_plain, H|constructor]. Qed.
Lemma flat_plain {A} (f : A -> list pinst) l : Forall (fun a => Forall inst_plain (f a)) l -> Forall inst_plain (flat_map f l).
Proof. induction 1; cbn [flat_map]; [constructor|]. now apply Forall_app. Qed.
Lemma decl_wf_plain d : decl_wf d -> decl_plain d.
Proof.
  destruct d as [x tps ps fl gs|x tps ps sel cs d gs|x tps ps fl gs|t x l c|t x l c|t x e|t x|t x|o];
    cbn [decl_wf]; intros W; unfold decl_plain; cbn [S_Visit.decl_insts].
  - destruct W as (_ & W & _). split.
    + apply Forall_app. split; [apply none_all|]. apply Forall_app. split; [|apply none_all].
      apply Forall_map. eapply Forall_impl; [|exact W]. intros f (_ & _ & (H & _) & _). now apply inst_wf_plain.
    + eapply Forall_impl; [|exact W]. intros f (_ & _ & _ & _ & _ & _ & H). exact H.
  - destruct W as (_ & _ & _ & Wc & Wd & _). split; [|exact Logic.I].
    apply Forall_app. split; [apply none_all|]. apply Forall_app. split; [|apply Forall_app; split; [|apply none_all]].
    + apply flat_plain. eapply Forall_impl; [|exact Wc]. intros c (_ & _ & H). now apply cfield_insts_plain.
    + destruct d as [f|]; [|constructor]. cbn [S_Visit.list_of flat_map]. rewrite app_nil_r. now apply cfield_insts_plain.
  - destruct W as (_ & W & _). split; [|exact Logic.I].
    apply Forall_app. split; [apply none_all|]. apply Forall_app. split; [|apply none_all].
    apply flat_plain. eapply Forall_impl; [|exact W]. intros f H. exact (cfield_insts_plain (Some f) H).
  - split; [|exact Logic.I]. constructor; [apply inst_wf_plain, W|constructor].
  - split; [|exact Logic.I]. constructor; [apply inst_wf_plain, W|constructor].
  - split; [|exact Logic.I]. constructor; [apply inst_wf_plain, W|constructor].
  - split; [|exact Logic.I]. constructor; [apply none_plain|constructor].
  - split; [|exact Logic.I]. constructor; [apply none_plain|constructor].
  - split; [|exact Logic.I]. destruct o as [x l|x tps u fl c w|x fl|x ms|x ms]; cbn [other_wf S_Visit.other_insts] in *.
    + constructor.
    + apply Forall_map. eapply Forall_impl; [|exact (proj1 W)]. intros f (H & _). now apply inst_wf_plain.
    + apply Forall_map. eapply Forall_impl; [|exact (proj2 W)]. intros f. apply inst_wf_plain.
    + apply flat_plain, Forall_forall. intros m _. constructor; [apply none_plain|constructor; [apply none_plain|constructor]].
    + apply none_all.
Qed.
Lemma parse_exact ts f : parse ts = Parsed f /\ file_plain f <-> file_wf f /\ file_tokens f = ts.
Proof.
  split.
  - intros (H & P). exact (conj (parse_formed ts f H P) (parse_reads ts f H)).
  - intros (W & <-). split; [now apply parse_back|]. unfold file_plain. eapply Forall_impl; [|exact (proj2 (proj2 W))].
    apply decl_wf_plain.
Qed.
