(** Proofs about the visitor: types and declarations. *)
From Coq Require Import ZArith List Bool String Ascii Lia.
From Verif Require Import M_Base M_Expr M_Scope M_Templ M_Pkg M_Lit M_Visit S_Lit S_Visit P_Base P_Lit P_Visit.
Import ListNotations.
Open Scope string_scope.
Open Scope list_scope.

(** ** Lists *)

Lemma mapM_ok : forall {A B} (f : A -> res B) l l', mapM f l = Ok l' <-> Forall2 (fun a b => f a = Ok b) l l'.
Proof.
  induction l as [|a l IH]; intros l'; cbn [mapM]; split; intros H.
  - apply ok_inj in H. subst. constructor.
  - inversion H. reflexivity.
  - bind_in H. bind_in H. apply ok_inj in H. subst. constructor; [assumption|]. now apply IH.
  - inversion H as [|a' b l1 l2 E F]; subst. rewrite E. cbn [bind]. apply IH in F. rewrite F. reflexivity.
Qed.
Lemma mapM_ext : forall {A B} (f g : A -> res B) l, (forall a, In a l -> f a = g a) -> mapM f l = mapM g l.
Proof.
  induction l as [|a l IH]; intros H; cbn [mapM]; [reflexivity|].
  rewrite (H a) by (now left). destruct (g a); cbn [bind]; try reflexivity.
  rewrite IH; [reflexivity|]. intros x I. apply H. now right.
Qed.
Lemma mapM_map : forall {A B C} (f : B -> res C) (h : A -> B) l, mapM f (map h l) = mapM (fun a => f (h a)) l.
Proof.
  induction l as [|a l IH]; cbn [map mapM]; [reflexivity|]. rewrite IH. reflexivity.
Qed.
Lemma shown_map : forall {A B C D} (f : A -> D) (g : B -> D) (h : C -> A) (v : C -> res B) l l',
  (forall c b, In c l -> v c = Ok b -> g b = f (h c)) -> mapM v l = Ok l' -> map g l' = map f (map h l).
Proof.
  intros A B C D f g h v l l' H E. apply mapM_ok in E. induction E as [|c b l1 l2 E F IH]; cbn [map]; [reflexivity|].
  rewrite (H c b) by (assumption || now left). rewrite IH; [reflexivity|]. intros c' b' I'. apply H. now right.
Qed.
Lemma flat_map_map : forall {A B} (f : A -> list B) l, flat_map f l = List.concat (map f l).
Proof. intros. apply flat_map_concat_map. Qed.

(** ** Types *)

Fixpoint ptype_ind' (P : ptype -> Prop) (H1 : forall s w, P (PBuiltin s w))
    (H2 : forall ids ts, Forall P ts -> P (PName ids ts)) (t : ptype) : P t :=
  match t with
  | PBuiltin s w => H1 s w
  | PName ids ts =>
      H2 ids ts ((fix go (l : list ptype) : Forall P l :=
                    match l with [] => Forall_nil P | a :: tl => Forall_cons a (ptype_ind' P H1 H2 a) (go tl) end) ts)
  end.

Lemma visit_ptype_name : forall ids ts, visit_ptype (PName ids ts)
  = (do us <- mapM visit_ptype ts ;
     do u <- visit_type false (join_dots ids) [] ;
     Ok (match u with Ty b p n bits _ _ _ => ZType b p n bits us [] None end)).
Proof.
  intros ids ts. cbn [visit_ptype].
  match goal with |- (do ts0 <- ?f ts ; _) = _ => replace (f ts) with (mapM visit_ptype ts); [reflexivity|] end.
  induction ts as [|a ts IH]; cbn [mapM]; [reflexivity|]. rewrite IH. reflexivity.
Qed.

Lemma join_concat : forall ids, join_dots ids = String.concat "." ids.
Proof.
  induction ids as [|a [|b ids] IH]; cbn [join_dots String.concat]; [reflexivity..|].
  cbn [join_dots] in IH. rewrite IH. reflexivity.
Qed.

Lemma visit_type_name : forall s, visit_type false s []
  = Ok (match rsplit_once "." s with Some (p, n) => Ty false p n 0 [] [] None | None => Ty false "" s 0 [] [] None end).
Proof. intros s. cbn [visit_type]. destruct (rsplit_once "." s) as [[p n]|]; reflexivity. Qed.

Lemma dots_no_dot : forall s x y, id_chars s = true -> s <> (x ++ String "." y)%string.
Proof.
  intros s. induction s as [|c s IH]; intros x y H E.
  - destruct x; discriminate E.
  - cbn [id_chars] in H. apply andb_true_iff in H as [H1 H2].
    destruct x as [|d x]; cbn [append] in E; injection E as E1 E2.
    + subst c. vm_compute in H1. discriminate H1.
    + exact (IH x y H2 E2).
Qed.

Lemma no_empty_package : forall ids p n, Forall identifier ids ->
  rsplit_once "." (join_dots ids) = Some (p, n) -> p <> "".
Proof.
  intros ids p n F E Ep. subst p. apply rsplit_some in E as [E _].
  destruct ids as [|a ids]; [discriminate E|]. inversion F as [|? ? [N C] F']; subst.
  destruct a as [|c a]; [congruence|].
  cbn [id_chars] in C. apply andb_true_iff in C as [C _].
  assert (E2 : c = "."%char) by (destruct ids; cbn [join_dots append] in E; injection E as E _; exact E).
  subst c. vm_compute in C. discriminate C.
Qed.

Lemma qualified_text : forall ids, Forall identifier ids ->
  match rsplit_once "." (join_dots ids) with
  | Some (p, n) => qualified p n = join_dots ids
  | None => True
  end.
Proof.
  intros ids F. destruct (rsplit_once "." (join_dots ids)) as [[p n]|] eqn:E; [|exact Logic.I].
  pose proof (no_empty_package ids p n F E) as N. apply rsplit_some in E as [E _].
  unfold qualified. destruct (String.eqb_spec p ""); [congruence|]. rewrite E. reflexivity.
Qed.

Lemma builtin_no_colon : forall s x y, In s builtin_names -> s <> (x ++ String ":" y)%string.
Proof.
  intros s x y I E.
  assert (X : split_once ":" s = None).
  { assert (Y : forallb (fun s => match split_once ":" s with None => true | _ => false end) builtin_names = true)
      by (vm_compute; reflexivity).
    rewrite forallb_forall in Y. specialize (Y s I). destruct (split_once ":" s); [discriminate|reflexivity]. }
  subst s. clear I. induction x as [|c x IH]; cbn [append split_once] in X.
  - rewrite Ascii.eqb_refl in X. discriminate X.
  - destruct (Ascii.eqb c ":"); [discriminate X|]. destruct (split_once ":" (x ++ String ":" y)) as [[? ?]|]; [discriminate X|].
    now apply IH.
Qed.
Lemma builtin_split : forall s, In s builtin_names -> split_once ":" s = None.
Proof.
  intros s I.
  assert (Y : forallb (fun s => match split_once ":" s with None => true | _ => false end) builtin_names = true)
      by (vm_compute; reflexivity).
  rewrite forallb_forall in Y. specialize (Y s I). destruct (split_once ":" s); [discriminate|reflexivity].
Qed.

(** A builtin type with a width. *)
Lemma visit_width : forall s n z, s = "bit" \/ s = "int" -> denotes TkDec n z ->
  visit_ptype (PBuiltin s (Some n)) = if (z <=? 255)%Z then Ok (ZType true "" s z [] [] None) else Panic.
Proof.
  intros s n z Hs D. inversion D as [s' Dg C E1 E2| | |]; subst.
  cbn [visit_ptype builtin_text].
  change (s ++ ":" ++ n)%string with (s ++ String ":" n)%string.
  rewrite (bit_width s n [] Hs Dg). destruct (numeral 10 n <=? 255)%Z; reflexivity.
Qed.
Lemma visit_builtin : forall s, In s builtin_names -> visit_ptype (PBuiltin s None) = Ok (ZType true "" s 0 [] [] None).
Proof.
  intros s I. cbn [visit_ptype builtin_text visit_type]. rewrite (builtin_split s I). reflexivity.
Qed.
Lemma bit_builtin : forall s, s = "bit" \/ s = "int" -> In s builtin_names.
Proof. intros s [->| ->]; vm_compute; tauto. Qed.

Lemma type_accepts : forall t, type_formed t -> accepts (type_readable t) (visit_ptype t).
Proof.
  induction t as [s w|ids ts IH] using ptype_ind'; intros F; inversion F as [s' I|s' n z Hs D|ids' ts' NE Fi Ft]; subst.
  - rewrite (visit_builtin s I). left. split; [constructor|eexists; reflexivity].
  - rewrite (visit_width s n z Hs D). destruct (z <=? 255)%Z eqn:L.
    + left. split; [apply TrWidth with z; [exact D|now apply Z.leb_le]|eexists; reflexivity].
    + right. split; [|reflexivity]. intros R. inversion R as [|s' n' z' D' L'|]; subst.
      inversion D; inversion D'; subst. apply Z.leb_gt in L. lia.
  - rewrite visit_ptype_name, visit_type_name.
    apply (accepts_iff (Forall type_readable ts)); [split; [now constructor|intros R; now inversion R]|].
    apply (accepts_map (Forall type_readable ts) (mapM visit_ptype ts)
      (fun us => match (match rsplit_once "." (join_dots ids) with
                        | Some (p, n) => Ty false p n 0 [] [] None | None => Ty false "" (join_dots ids) 0 [] [] None end)
                 with Ty b p n bits _ _ _ => ZType b p n bits us [] None end)).
    apply accepts_mapM. intros a Ia. rewrite Forall_forall in IH, Ft. apply IH; [exact Ia|now apply Ft].
Qed.

(** The visited type has no arguments. *)
Definition bare (u : ztype) : Prop := match u with ZType _ _ _ _ _ args len => args = [] /\ len = None end.
Lemma visit_ptype_bare : forall t u, visit_ptype t = Ok u -> bare u.
Proof.
  intros [s w|ids ts] u E.
  - cbn [visit_ptype] in E. bind_in E. apply ok_inj in E. subst u. destruct n. now split.
  - rewrite visit_ptype_name in E. bind_in E. bind_in E. apply ok_inj in E. subst u. destruct n0. now split.
Qed.

Lemma bracketed_nil : forall op cl, bracketed op cl [] = [].
Proof. reflexivity. Qed.

Lemma type_shown : forall t u, type_formed t -> visit_ptype t = Ok u -> show_type u = type_text (kept_type t).
Proof.
  induction t as [s w|ids ts IH] using ptype_ind'; intros u F E; inversion F as [s' I|s' n z Hs D|ids' ts' NE Fi Ft]; subst.
  - rewrite (visit_builtin s I) in E. apply ok_inj in E. subst u. cbn. destruct (String.eqb_spec s ""); reflexivity.
  - rewrite (visit_width s n z Hs D) in E. destruct (z <=? 255)%Z eqn:L; [|discriminate E].
    apply ok_inj in E. subst u. apply Z.leb_le in L. pose proof (decimal_of n z D L) as De.
    cbn [show_type qualified]. change (String.eqb "" "") with true. cbv iota.
    destruct (Z.eqb_spec z 0) as [->|NZ].
    + change (decimal 0) with "0" in De. subst n. reflexivity.
    + assert (N0 : n <> "0") by (intros ->; inversion D; subst; now apply NZ).
      rewrite De. replace (kept_type (PBuiltin s (Some n))) with (PBuiltin s (Some n)).
      * reflexivity.
      * cbn [kept_type]. destruct n as [|c [|c' n]]; try reflexivity; destruct c as [[] [] [] [] [] [] [] []]; try reflexivity.
        now elim N0.
  - rewrite visit_ptype_name, visit_type_name in E. bind_in E. cbn [bind] in E. apply ok_inj in E. subst u.
    cbn [kept_type type_text]. rewrite <- join_concat.
    assert (M : map show_type n = map type_text (map kept_type ts)).
    { apply (shown_map type_text show_type kept_type visit_ptype ts n); [|exact E0].
      intros c b Ic Ec. rewrite Forall_forall in IH, Ft. now apply IH; [|apply Ft|]. }
    pose proof (qualified_text ids Fi) as Q.
    destruct (rsplit_once "." (join_dots ids)) as [[p m]|]; cbn [show_type]; rewrite M.
    + rewrite Q. cbn. now rewrite app_nil_r.
    + unfold qualified. cbn. now rewrite app_nil_r.
Qed.

(** What is not kept does not matter. *)
Lemma type_kept : forall t, type_formed t -> visit_ptype (kept_type t) = visit_ptype t.
Proof.
  induction t as [s w|ids ts IH] using ptype_ind'; intros F; inversion F as [s' I|s' n z Hs D|ids' ts' NE Fi Ft]; subst.
  - reflexivity.
  - destruct (String.eqb_spec n "0") as [->|N0].
    + change (kept_type (PBuiltin s (Some "0"))) with (PBuiltin s None).
      rewrite (visit_builtin s (bit_builtin s Hs)), (visit_width s "0" z Hs D).
      inversion D; subst. reflexivity.
    + replace (kept_type (PBuiltin s (Some n))) with (PBuiltin s (Some n)); [reflexivity|].
      cbn [kept_type]. destruct n as [|c [|c' n]]; try reflexivity; destruct c as [[] [] [] [] [] [] [] []]; try reflexivity.
      now elim N0.
  - cbn [kept_type]. rewrite !visit_ptype_name. rewrite mapM_map.
    rewrite (mapM_ext (fun a => visit_ptype (kept_type a)) visit_ptype ts); [reflexivity|].
    intros a Ia. rewrite Forall_forall in IH, Ft. now apply IH; [|apply Ft].
Qed.
Lemma type_readable_kept : forall t, type_formed t -> (type_readable (kept_type t) <-> type_readable t).
Proof.
  induction t as [s w|ids ts IH] using ptype_ind'; intros F; inversion F as [s' I|s' n z Hs D|ids' ts' NE Fi Ft]; subst.
  - reflexivity.
  - destruct (String.eqb_spec n "0") as [->|N0].
    + split; intros _; [|constructor]. apply TrWidth with z; [exact D|]. inversion D; subst. vm_compute. discriminate.
    + replace (kept_type (PBuiltin s (Some n))) with (PBuiltin s (Some n)); [reflexivity|].
      cbn [kept_type]. destruct n as [|c [|c' n]]; try reflexivity; destruct c as [[] [] [] [] [] [] [] []]; try reflexivity.
      now elim N0.
  - cbn [kept_type].
    assert (X : Forall type_readable (map kept_type ts) <-> Forall type_readable ts).
    { rewrite Forall_map. rewrite !Forall_forall in *. split; intros H a Ia; apply (IH a Ia (Ft a Ia)); now apply H. }
    split; intros R; constructor; inversion R; subst; now apply X.
Qed.

Definition insts_readable (l : list pinst) : Prop := Forall (fun t => type_readable (pi_type t)) l.

Lemma arg_accepts : forall a, Forall expr_formed (arg_exprs a) ->
  accepts (Forall expr_readable (arg_exprs (kept_arg a))) (visit_arg a).
Proof.
  intros [s|e] F; cbn [arg_exprs kept_arg visit_arg].
  - apply (accepts_iff True); [split; [repeat constructor|tauto]|apply accepts_ret].
  - cbn [arg_exprs] in F. inversion F; subst. apply (accepts_iff (expr_readable e)).
    + split; [intros; repeat constructor; assumption|intros X; now inversion X].
    + now apply expr_accepts.
Qed.
Lemma arg_shown : forall a x, visit_arg a = Ok x -> show x = arg_text (kept_arg a).
Proof.
  intros [s|e] x E; cbn [visit_arg kept_arg arg_text] in *.
  - apply ok_inj in E. subst x. reflexivity.
  - now apply expr_shown.
Qed.
Lemma arg_kept : forall a, visit_arg (kept_arg a) = visit_arg a.
Proof. intros [s|e]; reflexivity. Qed.

Lemma flat_map_forall : forall {A B} (P : B -> Prop) (f : A -> list B) l,
  Forall P (flat_map f l) <-> Forall (fun a => Forall P (f a)) l.
Proof.
  intros A B P f l. rewrite !Forall_forall. split.
  - intros H a Ia. rewrite Forall_forall. intros b Ib. apply H. apply in_flat_map. now exists a.
  - intros H b Ib. apply in_flat_map in Ib. destruct Ib as (a & Ia & Ib). specialize (H a Ia). rewrite Forall_forall in H. now apply H.
Qed.

Lemma inst_accepts : forall t, inst_formed t -> Forall expr_formed (inst_exprs t) ->
  accepts (type_readable (pi_type (kept_inst t)) /\ Forall expr_readable (inst_exprs (kept_inst t))) (visit_inst t).
Proof.
  intros [t x] [F NE] Fe. unfold inst_exprs, kept_inst, visit_inst in *. cbn [pi_type pi_suffix] in *.
  apply accepts_bind.
  - apply (accepts_iff (type_readable t)); [symmetry; now apply type_readable_kept|now apply type_accepts].
  - intros u E. destruct u as [b p n bits ts args len]. destruct x as [|l|e].
    + apply (accepts_iff True); [split; [constructor|tauto]|apply accepts_ret].
    + apply (accepts_iff (Forall (fun a => Forall expr_readable (arg_exprs (kept_arg a))) l)).
      { rewrite flat_map_forall. now rewrite Forall_map. }
      rewrite flat_map_forall in Fe.
      apply (accepts_map _ (mapM visit_arg l) (fun xs => ZType b p n bits ts xs None)).
      apply accepts_mapM. intros a Ia. apply arg_accepts. rewrite Forall_forall in Fe. now apply Fe.
    + inversion Fe; subst. apply (accepts_iff (expr_readable e)).
      { split; [intros; repeat constructor; assumption|intros X; now inversion X]. }
      apply accepts_map. now apply expr_accepts.
Qed.
Lemma inst_shown : forall t u, inst_formed t -> visit_inst t = Ok u -> show_type u = inst_text (kept_inst t).
Proof.
  intros [t x] u [F NE] E. unfold inst_text, kept_inst, visit_inst in *. cbn [pi_type pi_suffix] in *.
  bind_in E. pose proof (type_shown t n F E0) as T. pose proof (visit_ptype_bare t n E0) as B.
  destruct n as [b p n bits ts args len]. destruct B as [-> ->]. destruct x as [|l|e].
  - apply ok_inj in E. subst u. rewrite T. cbn. now rewrite app_nil_r.
  - bind_in E. apply ok_inj in E. subst u. rewrite <- T. cbn [show_type suffix_text].
    rewrite (shown_map arg_text show kept_arg visit_arg l n0); [|intros c y _; apply arg_shown|exact E1].
    destruct l as [|a l]; [congruence|]. cbn [map bracketed]. cbn [option_text]. rewrite ?app_nil_r, <- ?app_assoc.
    cbn [bracketed app]. rewrite <- ?app_assoc. reflexivity.
  - bind_in E. apply ok_inj in E. subst u. rewrite <- T. cbn [show_type suffix_text].
    rewrite <- (expr_shown e n0 E1). cbn [map bracketed option_text app]. rewrite ?app_nil_r, <- ?app_assoc.
    cbn [app]. rewrite <- ?app_assoc. reflexivity.
Qed.
Lemma inst_kept : forall t, inst_formed t -> visit_inst (kept_inst t) = visit_inst t.
Proof.
  intros [t x] [F NE]. unfold kept_inst, visit_inst. cbn [pi_type pi_suffix]. rewrite (type_kept t F).
  destruct (visit_ptype t) as [u| | |]; cbn [bind]; try reflexivity. destruct u. destruct x as [|l|e]; try reflexivity.
  rewrite mapM_map. rewrite (mapM_ext _ visit_arg); [reflexivity|]. intros a _. apply arg_kept.
Qed.
