(** Proofs about the visitor: declarations and files. *)
From Coq Require Import ZArith List Bool String Ascii Lia.
From Verif Require Import M_Base M_Expr M_Scope M_Templ M_Pkg M_Lit M_Visit S_Lit S_Visit P_Base P_Lit P_Visit P_Visit2.
Import ListNotations.
Open Scope string_scope.
Open Scope list_scope.

Lemma opt_shown : forall {A B} (f : A -> list string) (g : B -> list string) (v : A -> res B) x y,
  (forall a b, v a = Ok b -> g b = f a) -> visit_opt v x = Ok y -> option_text g y = option_text f x.
Proof.
  intros A B f g v [a|] y H E; cbn [visit_opt] in E.
  - bind_in E. apply ok_inj in E. subst y. cbn. now apply H.
  - apply ok_inj in E. subst y. reflexivity.
Qed.

Lemma exprs_accepts : forall x, Forall expr_formed (list_of x) ->
  accepts (Forall expr_readable (list_of x)) (visit_opt visit_expr x).
Proof.
  intros x F. apply accepts_opt. intros a ->. apply expr_accepts. now inversion F.
Qed.

(** ** Members *)

Lemma inst_of_kept : forall m, pm_inst (kept_member m) = kept_inst (pm_inst m).
Proof. reflexivity. Qed.

Lemma member_accepts : forall m, inst_formed (pm_inst m) -> Forall expr_formed (member_exprs m) ->
  accepts (type_readable (pi_type (pm_inst (kept_member m))) /\ Forall expr_readable (member_exprs (kept_member m)))
    (visit_member m).
Proof.
  intros [pa im t nm r] F Fe. unfold member_exprs, visit_member, kept_member in *. cbn [pm_inst pm_range pm_name pm_packed pm_implicit] in *.
  rewrite Forall_app in Fe. destruct Fe as [F1 F2].
  apply (accepts_iff ((type_readable (pi_type (kept_inst t)) /\ Forall expr_readable (inst_exprs (kept_inst t)))
    /\ Forall expr_readable match r with Some (Some e) => [e] | _ => [] end)).
  { rewrite Forall_app. tauto. }
  apply accepts_bind; [now apply inst_accepts|]. intros u _.
  apply accepts_map with (k := fun arr => ZField nm false 0 u None None None None arr false).
  destruct r as [[e|]|]; cbn [visit_opt bind].
  - inversion F2; subst. apply (accepts_iff (expr_readable e)).
    { split; [intros; repeat constructor; assumption|intros X; now inversion X]. }
    destruct (expr_accepts e H1) as [[H [x E]]|[H E]]; rewrite E; cbn [bind]; [left|right]; (split; [assumption|]);
      [eexists|]; reflexivity.
  - apply (accepts_iff True); [split; [constructor|tauto]|apply accepts_ret].
  - apply (accepts_iff True); [split; [constructor|tauto]|apply accepts_ret].
Qed.

(** What [visit_member] makes. *)
Lemma member_is : forall m f, visit_member m = Ok f ->
  zf_name f = pm_name m /\ zf_optional f = false /\ zf_align f = 0%Z /\ zf_constraint f = None /\ zf_init f = None
  /\ zf_offset f = None /\ zf_clause f = None /\ zf_is_offset f = false.
Proof.
  intros m f E. unfold visit_member in E. bind_in E. bind_in E. apply ok_inj in E. subst f. repeat split.
Qed.
Lemma member_shown : forall m f, inst_formed (pm_inst m) -> visit_member m = Ok f ->
  show_member (zf_type f) (zf_name f) (zf_array f) = member_text (kept_member m).
Proof.
  intros [pa im t nm r] f F E. unfold visit_member, kept_member, member_text in *.
  cbn [pm_inst pm_range pm_name pm_packed pm_implicit] in *.
  bind_in E. bind_in E. apply ok_inj in E. subst f. unfold show_member. cbn [zf_type zf_name zf_array].
  rewrite (inst_shown t n F E0). destruct r as [r|]; cbn [visit_opt is_some] in *.
  - bind_in E1. apply ok_inj in E1. subst n0. bind_in E. apply ok_inj in E. subst n1. cbn [za_packed za_implicit za_len option_text].
    rewrite !andb_true_r. rewrite (opt_shown expr_text show visit_expr r n0 expr_shown E1). reflexivity.
  - apply ok_inj in E1. subst n0. rewrite !andb_false_r. reflexivity.
Qed.

Lemma member_kept : forall m, inst_formed (pm_inst m) -> visit_member (kept_member m) = visit_member m.
Proof.
  intros [pa im t nm r] F. unfold visit_member, kept_member. cbn [pm_inst pm_range pm_name pm_packed pm_implicit] in *.
  rewrite (inst_kept t F). destruct (visit_inst t); cbn [bind]; try reflexivity.
  destruct r as [r|]; cbn [is_some]; [rewrite !andb_true_r|]; reflexivity.
Qed.

(** ** Fields *)

Lemma align_of : forall e z, expr_formed e -> visit_align e = Ok z ->
  exists s, e = PLit TkDec s /\ denotes TkDec s z /\ (z <= 255)%Z.
Proof.
  intros e z F E. unfold visit_align in E. bind_in E.
  destruct e; cbn [visit_expr] in E0; repeat (bind_in E0); try (apply ok_inj in E0; subst n; discriminate E).
  - destruct o; apply ok_inj in E0; subst n; discriminate E.
  - destruct o; apply ok_inj in E0; subst n; discriminate E.
  - apply ok_inj in E0. subst n. destruct k; try discriminate E.
    unfold expr_formed in F. cbn [literals_of] in F. inversion F as [|? ? T]; subst. cbn [fst snd] in T.
    inversion T as [|k s' w D E3 E4| | |]; subst.
    change (Z.eqb (literal_token TkDec) T_DECIMAL_LITERAL) with true in E. cbv iota in E.
    exists s. split; [reflexivity|]. pose proof D as D'. inversion D' as [s' Dg C E3 E4| | |]; subst.
    rewrite (u8_parse s Dg) in E. destruct (numeral 10 s <=? 255)%Z eqn:L; [|discriminate E].
    apply ok_inj in E. subst z. split; [exact D|]. now apply Z.leb_le.
Qed.
Lemma align_reads : forall s z, denotes TkDec s z -> (z <= 255)%Z -> visit_align (PLit TkDec s) = Ok z.
Proof.
  intros s z D L. unfold visit_align. cbn [visit_expr].
  rewrite (literal_value TkDec s z D); [|lia|intros C; inversion C]. cbn [bind].
  inversion D as [s' Dg C E3 E4| | |]; subst. cbn [literal_token]. change (Z.eqb T_DECIMAL_LITERAL T_DECIMAL_LITERAL) with true.
  cbv iota. rewrite (u8_parse s Dg). apply Z.leb_le in L. rewrite L. reflexivity.
Qed.
Lemma align_panics : forall e, expr_formed e -> (exists z, visit_align e = Ok z) \/ visit_align e = Panic.
Proof.
  intros e F. unfold visit_align. destruct (expr_accepts e F) as [[_ [n E]]|[_ E]]; rewrite E; cbn [bind]; [|now right].
  destruct n. destruct (_ =? _)%Z; [|now right]. destruct (u8_from_str _); cbn [expect]; [left; now eexists|now right].
Qed.
Lemma align_accepts : forall e, expr_formed e -> accepts (align_readable e) (visit_align e).
Proof.
  intros e F. destruct (align_panics e F) as [[z E]|E].
  - left. split; [|now exists z]. destruct (align_of e z F E) as (s & -> & D & L). now exists s, z.
  - right. split; [|exact E]. intros (s & z & -> & D & L). rewrite (align_reads s z D L) in E. discriminate E.
Qed.

Lemma kept_align_zero : forall e, kept_align e = None -> e = PLit TkDec "0".
Proof.
  intros e H. destruct e; try discriminate H. destruct k; try discriminate H.
  destruct s as [|c [|c' n]]; try discriminate H; destruct c as [[] [] [] [] [] [] [] []]; try discriminate H. reflexivity.
Qed.
Lemma kept_align_some : forall e e', kept_align e = Some e' -> e' = e.
Proof.
  intros e e' H. unfold kept_align in H.
  repeat match type of H with context [match ?x with _ => _ end] => destruct x end; try discriminate H; now injection H.
Qed.
Lemma zero_denotes : denotes TkDec "0" 0.
Proof. apply (DnDec "0"); [split; [discriminate|reflexivity]|now left]. Qed.

Definition kept_aligns (f : pfield) : list pexpr := list_of (pf_align (kept_field f)).
Lemma aligns_accepts : forall f, Forall expr_formed (list_of (pf_align f)) ->
  accepts (Forall align_readable (kept_aligns f)) (visit_opt visit_align (pf_align f)).
Proof.
  intros f F. unfold kept_aligns, kept_field. cbn [pf_align].
  apply (accepts_iff (Forall align_readable (list_of (pf_align f)))).
  - destruct (pf_align f) as [e|]; [|tauto]. destruct (kept_align e) as [e'|] eqn:K.
    + apply kept_align_some in K. subst. tauto.
    + apply kept_align_zero in K. subst. cbn [list_of]. split; [constructor|]. intros _.
      repeat constructor. exists "0", 0%Z. split; [reflexivity|]. split; [exact zero_denotes|lia].
  - apply accepts_opt. intros a E. rewrite E in F. apply align_accepts. now inversion F.
Qed.

Lemma field_accepts : forall f, inst_formed (pm_inst (pf_member f)) -> Forall expr_formed (field_exprs f) ->
  Forall expr_formed (list_of (pf_align f)) ->
  accepts (Forall expr_readable (field_exprs (kept_field f)) /\ Forall align_readable (kept_aligns f)
           /\ type_readable (pi_type (pm_inst (pf_member (kept_field f))))) (visit_field f).
Proof.
  intros f Fi Fe Fa. unfold field_exprs in Fe. rewrite !Forall_app in Fe. destruct Fe as (F1 & F2 & F3 & F4 & F5).
  apply (accepts_iff ((type_readable (pi_type (pm_inst (kept_member (pf_member f))))
                       /\ Forall expr_readable (member_exprs (kept_member (pf_member f))))
    /\ Forall align_readable (kept_aligns f) /\ Forall expr_readable (list_of (pf_offset f))
    /\ Forall expr_readable (list_of (pf_init f)) /\ Forall expr_readable (list_of (pf_clause f))
    /\ Forall expr_readable (list_of (pf_constraint f)))).
  { unfold field_exprs. cbn [kept_field pf_member pf_offset pf_init pf_clause pf_constraint].
    rewrite !Forall_app. tauto. }
  unfold visit_field. apply accepts_bind; [now apply member_accepts|]. intros m _.
  apply accepts_bind; [now apply aligns_accepts|]. intros al _.
  apply accepts_bind; [now apply exprs_accepts|]. intros off _.
  apply accepts_bind; [now apply exprs_accepts|]. intros ini _.
  apply accepts_bind; [now apply exprs_accepts|]. intros cl _.
  apply accepts_map. now apply exprs_accepts.
Qed.

Lemma align_shown : forall f al, Forall expr_formed (list_of (pf_align f)) -> visit_opt visit_align (pf_align f) = Ok al ->
  show_align (match al with Some a => a | None => 0%Z end)
  = option_text (fun e => "align" :: "(" :: expr_text e ++ [")"; ":"]) (pf_align (kept_field f)).
Proof.
  intros f al F E. cbn [kept_field pf_align]. destruct (pf_align f) as [e|]; cbn [visit_opt] in E.
  - bind_in E. apply ok_inj in E. subst al. cbn [list_of] in F. inversion F; subst.
    destruct (align_of e n H1 E0) as (s & -> & D & L). pose proof (decimal_of s n D L) as De.
    unfold show_align. destruct (Z.eqb_spec n 0) as [->|NZ].
    + change (decimal 0) with "0" in De. subst s. reflexivity.
    + destruct (kept_align (PLit TkDec s)) as [e'|] eqn:K.
      * apply kept_align_some in K. subst e'. cbn. now rewrite De.
      * apply kept_align_zero in K. injection K as ->. inversion D; subst. now elim NZ.
  - apply ok_inj in E. subst al. reflexivity.
Qed.

Lemma field_shown : forall f z, inst_formed (pm_inst (pf_member f)) -> Forall expr_formed (list_of (pf_align f)) ->
  visit_field f = Ok z -> show_field z ++ [";"] = field_text (kept_field f).
Proof.
  intros f z Fi Fa E. unfold visit_field in E. do 6 (bind_in E). apply ok_inj in E. subst z.
  pose proof (member_shown _ _ Fi E0) as M. destruct (member_is _ _ E0) as (_ & _ & Al & _).
  pose proof (align_shown f n0 Fa E1) as A. rewrite Al.
  unfold show_field, field_text. cbn [zf_align zf_offset zf_optional zf_type zf_name zf_array zf_init zf_clause zf_constraint].
  rewrite M. rewrite <- A.
  cbn [kept_field pf_align pf_offset pf_extend pf_optional pf_member pf_init pf_clause pf_constraint word app].
  rewrite (opt_shown (fun e => expr_text e ++ [":"]) (fun e => show e ++ [":"]) visit_expr (pf_offset f) n1); [|intros a b Eb; now rewrite (expr_shown a b Eb)|assumption].
  rewrite (opt_shown (fun e => "=" :: expr_text e) (fun e => "=" :: show e) visit_expr (pf_init f) n2); [|intros a b Eb; now rewrite (expr_shown a b Eb)|assumption].
  rewrite (opt_shown (fun e => "if" :: expr_text e) (fun e => "if" :: show e) visit_expr (pf_clause f) n3); [|intros a b Eb; now rewrite (expr_shown a b Eb)|assumption].
  rewrite (opt_shown (fun e => ":" :: expr_text e) (fun e => ":" :: show e) visit_expr (pf_constraint f) n4); [|intros a b Eb; now rewrite (expr_shown a b Eb)|assumption].
  now rewrite <- !app_assoc.
Qed.
Lemma field_kept : forall f, inst_formed (pm_inst (pf_member f)) -> visit_field (kept_field f) = visit_field f.
Proof.
  intros f Fi. unfold visit_field. cbn [kept_field pf_align pf_offset pf_extend pf_optional pf_member pf_init pf_clause pf_constraint].
  rewrite (member_kept _ Fi). destruct (visit_member (pf_member f)) as [m| | |] eqn:E; cbn [bind]; try reflexivity.
  destruct (member_is _ _ E) as (_ & _ & Al & _).
  destruct (pf_align f) as [e|]; [|reflexivity]. destruct (kept_align e) as [e'|] eqn:K.
  - apply kept_align_some in K. now subst.
  - apply kept_align_zero in K. subst e. cbn [visit_opt]. rewrite (align_reads "0" 0 zero_denotes) by lia.
    cbn [bind]. rewrite Al. reflexivity.
Qed.

Definition cfield_ok (f : pcfield) : Prop :=
  Forall inst_formed (cfield_insts f) /\ Forall expr_formed (cfield_exprs f).
Definition cfield_reads (f : pcfield) : Prop :=
  insts_readable (cfield_insts f) /\ Forall expr_readable (cfield_exprs f).
Lemma cfield_accepts : forall f, cfield_ok f -> accepts (cfield_reads (kept_cfield f)) (visit_cfield f).
Proof.
  intros f [Fi Fe]. unfold cfield_exprs in Fe. rewrite Forall_app in Fe. destruct Fe as [Fe _].
  inversion Fi; subst. unfold visit_cfield.
  eapply accepts_iff; [|now apply member_accepts].
  unfold cfield_reads, insts_readable, cfield_insts, cfield_exprs. cbn [kept_cfield pc_member pc_constraint list_of].
  rewrite app_nil_r. split.
  - intros [A B]. split; [now repeat constructor|exact B].
  - intros [A B]. inversion A; subst. now split.
Qed.
Lemma cfield_shown : forall f z, cfield_ok f -> visit_cfield f = Ok z ->
  show_field z = cfield_text (kept_cfield f).
Proof.
  intros f z [Fi _] E. inversion Fi; subst. unfold visit_cfield in E.
  pose proof (member_shown _ _ H1 E) as M. destruct (member_is _ _ E) as (_ & O & Al & Co & Ini & Off & Cl & _).
  unfold show_field. rewrite O, Al, Co, Ini, Off, Cl, M. unfold cfield_text.
  cbn [kept_cfield pc_member pc_constraint option_text word app show_align]. now rewrite !app_nil_r.
Qed.
Lemma cfield_kept : forall f, cfield_ok f -> visit_cfield (kept_cfield f) = visit_cfield f.
Proof. intros f [Fi _]. inversion Fi; subst. unfold visit_cfield, kept_cfield. cbn [pc_member]. now apply member_kept. Qed.

Definition case_ok (c : list pexpr * option pcfield) : Prop :=
  Forall expr_formed (fst c) /\ forall f, snd c = Some f -> cfield_ok f.
Lemma case_accepts : forall c, case_ok c ->
  accepts (Forall expr_readable (fst c) /\ Forall cfield_reads (list_of (snd (kept_case c)))) (visit_case c).
Proof.
  intros [es x] [F1 F2]. unfold visit_case. cbn [fst snd kept_case] in *.
  apply accepts_bind.
  - apply accepts_mapM. intros a Ia. apply expr_accepts. rewrite Forall_forall in F1. now apply F1.
  - intros es' _. apply accepts_map with (k := fun f => (es', f)).
    apply (accepts_iff (Forall (fun f => cfield_reads (kept_cfield f)) (list_of x))).
    { destruct x; cbn [option_map list_of]; [|split; constructor]. split; intros X; inversion X; (constructor; [assumption|constructor]). }
    apply accepts_opt. intros a E. apply cfield_accepts. now apply F2.
Qed.
Lemma case_shown : forall c z, case_ok c -> visit_case c = Ok z -> show_case z = case_text (kept_case c).
Proof.
  intros [es x] z [F1 F2] E. unfold visit_case, show_case, case_text in *. cbn [fst snd kept_case] in *.
  bind_in E. bind_in E. apply ok_inj in E. subst z. cbn [fst snd].
  rewrite !flat_map_map.
  rewrite (shown_map (fun e => "case" :: expr_text e ++ [":"]) (fun e => "case" :: show e ++ [":"]) (fun e => e) visit_expr es n);
    [|intros c b _ Eb; now rewrite (expr_shown c b Eb)|exact E0].
  rewrite map_id. f_equal. f_equal.
  destruct x as [f|]; cbn [visit_opt] in E1.
  - bind_in E1. apply ok_inj in E1. subst n0. cbn. apply cfield_shown; [now apply F2|exact E].
  - apply ok_inj in E1. now subst n0.
Qed.
Lemma case_kept : forall c, case_ok c -> visit_case (kept_case c) = visit_case c.
Proof.
  intros [es x] [_ F2]. unfold visit_case, kept_case. cbn [fst snd] in *. destruct (mapM visit_expr es); cbn [bind]; try reflexivity.
  destruct x as [f|]; [|reflexivity]. cbn [option_map visit_opt]. rewrite (cfield_kept f); [reflexivity|]. now apply F2.
Qed.

Lemma param_accepts : forall p, type_formed (pp_type p) ->
  accepts (type_readable (pp_type (kept_param p))) (visit_param p).
Proof.
  intros p F. unfold visit_param. apply accepts_map.
  apply (accepts_iff (type_readable (pp_type p))); [symmetry; now apply type_readable_kept|now apply type_accepts].
Qed.
Lemma param_shown : forall p z, type_formed (pp_type p) -> visit_param p = Ok z -> show_param z = param_text (kept_param p).
Proof.
  intros p z F E. unfold visit_param in E. bind_in E. apply ok_inj in E. subst z. unfold show_param, param_text.
  cbn. now rewrite (type_shown _ _ F E0).
Qed.
Lemma param_kept : forall p, type_formed (pp_type p) -> visit_param (kept_param p) = visit_param p.
Proof. intros p F. unfold visit_param. cbn [kept_param pp_type pp_name]. now rewrite (type_kept _ F). Qed.

Lemma fun_accepts : forall g, type_formed (pfn_type g) -> expr_formed (pfn_body g) ->
  accepts (expr_readable (pfn_body g) /\ type_readable (pfn_type (kept_fun g))) (visit_fun g).
Proof.
  intros g F Fe. unfold visit_fun. apply accepts_bind; [now apply expr_accepts|]. intros x _. apply accepts_map.
  apply (accepts_iff (type_readable (pfn_type g))); [symmetry; now apply type_readable_kept|now apply type_accepts].
Qed.
Lemma fun_shown : forall g z, type_formed (pfn_type g) -> visit_fun g = Ok z -> show_fun z = fun_text (kept_fun g).
Proof.
  intros g z F E. unfold visit_fun in E. bind_in E. bind_in E. apply ok_inj in E. subst z. unfold show_fun, fun_text.
  cbn [zfn_type zfn_name zfn_result kept_fun pfn_type pfn_name pfn_body].
  now rewrite (type_shown _ _ F E1), (expr_shown _ _ E0).
Qed.
Lemma fun_kept : forall g, type_formed (pfn_type g) -> visit_fun (kept_fun g) = visit_fun g.
Proof. intros g F. unfold visit_fun. cbn [kept_fun pfn_type pfn_name pfn_body]. now rewrite (type_kept _ F). Qed.

Lemma item_accepts : forall i, Forall expr_formed (list_of (snd i)) ->
  accepts (Forall expr_readable (list_of (snd i))) (visit_item i).
Proof. intros [n x] F. unfold visit_item. apply accepts_map. now apply exprs_accepts. Qed.
Lemma item_shown : forall i z, visit_item i = Ok z -> show_item z = value_text (fst i) (snd i).
Proof.
  intros [n x] z E. unfold visit_item in E. cbn [fst snd] in *. bind_in E. apply ok_inj in E. subst z. unfold show_item, value_text. cbn [fst snd].
  f_equal. apply (opt_shown (fun e => "=" :: expr_text e) (fun e => "=" :: show e) visit_expr _ _); [|assumption].
  intros a b Eb. now rewrite (expr_shown a b Eb).
Qed.
