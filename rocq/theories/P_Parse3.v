(** Proofs about the parser (C72): what is read is what was written. *)
From Coq Require Import ZArith List Bool String Lia.
From Verif Require Import M_Base M_Expr M_Lit M_Visit M_Parse S_Parse P_Parse.
Import ListNotations.
Local Open Scope list_scope.
Open Scope Z_scope.

Ltac napp := repeat (progress (rewrite <- ?app_assoc; cbn [app])).
(** Every successful run read the tokens of a tree. *)
Definition reads_as {R A} (p : parser R A) (f : A -> list token) (P : A -> Prop) : Prop :=
  forall k ts r, p k ts = Parsed r -> exists a rest, ts = f a ++ rest /\ P a /\ k a rest = Parsed r.

Lemma expression_as {R} n p : reads_as (@expression R n p) expr_tokens (fun _ => True).
Proof. intros k ts r H. apply expression_reads in H as (e & rest & E & H). eauto. Qed.
Lemma ident_as {R} : reads_as (@ident R) (fun s => [I s]) (fun _ => True).
Proof. intros k ts r H. apply ident_inv in H as (s & rest & -> & H). exists s, rest. auto. Qed.
Lemma tok_as {R} s : reads_as (@tok R s) (fun _ => [K s]) (fun _ => True).
Proof. intros k ts r H. apply tok_inv in H as (rest & -> & H). exists tt, rest. auto. Qed.
Lemma lit_as {R} j : reads_as (@lit_of R j) (fun s => [L j s]) (fun _ => True).
Proof.
  intros k ts r H. unfold lit_of in H. destruct ts as [|[x|i x|x] tl]; try discriminate.
  destruct i, j; try discriminate; exists x, tl; auto.
Qed.
Lemma one_as {R} l : reads_as (@one_of R l) (fun s => [K s]) (fun s => In s l).
Proof.
  intros k ts r H. unfold one_of in H. destruct ts as [|[x|i x|x] tl]; try discriminate.
  destruct (existsb (String.eqb x) l) eqn:E; [|discriminate]. apply existsb_exists in E as (y & M & E).
  apply String.eqb_eq in E. subst y. exists x, tl. auto.
Qed.

Lemma as_weaken {R A} (p : parser R A) f (P Q : A -> Prop) : (forall a, P a -> Q a) -> reads_as p f P -> reads_as p f Q.
Proof. intros W H k ts r E. apply H in E as (a & rest & X & Y & Z). eauto 6. Qed.

Definition opt_tokens {A} (f : A -> list token) (x : option A) : list token := match x with Some a => f a | None => [] end.
Lemma opt_as {R A} first (p : parser R A) f P : reads_as p f P -> reads_as (opt first p) (opt_tokens f) (opt_wf P).
Proof.
  intros HP k ts r H. unfold opt in H. apply look_inv in H as [(_ & H)|(_ & H)]; unfold pbind, pret in H.
  - apply HP in H as (a & rest & -> & Y & H). exists (Some a), rest. auto.
  - exists None, ts. repeat split; [exact H].
Qed.
Lemma flag_as {R} s : reads_as (@flag R s) (fun b => word b s) (fun _ => True).
Proof.
  intros k ts r H. unfold flag in H. apply look_inv in H as [(_ & H)|(_ & H)]; unfold pbind, pret in H.
  - apply tok_inv in H as (rest & -> & H). exists true, rest. auto.
  - exists false, ts. auto.
Qed.
Lemma many_as {R A} n first (p : parser R A) f P : reads_as p f P -> reads_as (many n first p) (flat_map f) (Forall P).
Proof.
  intros HP. induction n as [|m IH]; intros k ts r H; cbn [many] in H; [discriminate|].
  apply look_inv in H as [(_ & H)|(_ & H)]; unfold pbind, pret in H.
  - apply HP in H as (a & rest & -> & Y & H). apply IH in H as (l & rest2 & -> & Z & H).
    exists (a :: l), rest2. cbn [flat_map]. rewrite <- app_assoc. auto.
  - exists [], ts. auto.
Qed.
Lemma separated_cons {A} (f : A -> list token) a l :
  separated f (a :: l) = f a ++ flat_map (fun x => K "," :: f x) l.
Proof.
  revert a. induction l as [|b tl IH]; intros a; [cbn [separated flat_map]; now rewrite app_nil_r|].
  change (separated f (a :: b :: tl)) with (f a ++ [K ","] ++ separated f (b :: tl)). rewrite IH. reflexivity.
Qed.
Lemma dotted_cons a l : dotted (a :: l) = I a :: flat_map (fun x => [K "."; I x]) l.
Proof.
  revert a. induction l as [|b tl IH]; intros a; [reflexivity|].
  change (dotted (a :: b :: tl)) with ([I a; K "."] ++ dotted (b :: tl)). rewrite IH. reflexivity.
Qed.
Lemma commas_as {R A} n (p : parser R A) f P :
  reads_as p f P -> reads_as (commas n p) (separated f) (fun l => l <> [] /\ Forall P l).
Proof.
  intros HP k ts r H. unfold commas, pbind, pret in H. apply HP in H as (a & rest & -> & Y & H).
  assert (HC : reads_as (tok "," ;; p : parser R A) (fun x => K "," :: f x) P).
  { intros k0 ts0 r0 H0. unfold pbind in H0. apply tok_inv in H0 as (rest0 & -> & H0).
    apply HP in H0 as (b & rest1 & -> & Y0 & H0). exists b, rest1. auto. }
  apply (many_as n (la ",") _ _ P HC) in H as (l & rest2 & -> & Z & H).
  exists (a :: l), rest2. rewrite separated_cons, <- app_assoc. repeat split; [discriminate|auto|exact H].
Qed.
Lemma qualified_as {R} n : reads_as (@qualified R n) dotted (fun l => l <> []).
Proof.
  intros k ts r H. unfold qualified, pbind, pret in H. apply ident_inv in H as (a & rest & -> & H).
  assert (HC : reads_as (tok "." ;; ident : parser R string) (fun x => [K "."; I x]) (fun _ => True)).
  { intros k0 ts0 r0 H0. unfold pbind in H0. apply tok_inv in H0 as (rest0 & -> & H0).
    apply ident_inv in H0 as (b & rest1 & -> & H0). exists b, rest1. auto. }
  apply (many_as n (la ".") _ _ _ HC) in H as (l & rest2 & -> & Z & H).
  exists (a :: l), rest2. rewrite dotted_cons. repeat split; [discriminate|exact H].
Qed.

Lemma type_tokens_name ids a l : type_tokens (PName ids (a :: l)) = dotted ids ++ [K "<"] ++ separated type_tokens (a :: l) ++ [K ">"].
Proof.
  rewrite separated_cons. cbn [type_tokens]. rewrite <- !app_assoc.
  match goal with |- _ ++ _ ++ _ ++ ?g l ++ _ = _ =>
    assert (E : forall l, g l = flat_map (fun x => K "," :: type_tokens x) l) end.
  { induction l0 as [|b tl IH]; [reflexivity|]. cbn [flat_map app]. now rewrite <- IH. }
  now rewrite E.
Qed.
Lemma type_wf_name ids l : type_wf (PName ids l) <-> ids <> [] /\ Forall type_wf l.
Proof.
  cbn [type_wf]. split; intros [X Y]; (split; [exact X|]); clear X; revert Y; induction l as [|a tl IH]; intros Y.
  - constructor.
  - destruct Y as [Y Z]. constructor; auto.
  - exact Logic.I.
  - inversion Y; subst. split; [assumption|now apply IH].
Qed.
Lemma builtin_listed s : In s (bit_types ++ plain_types) <-> In s sized_names \/ In s builtin_names.
Proof.
  rewrite in_app_iff. unfold bit_types, plain_types, sized_names, builtin_names. cbn [In].
  split; (intros [H|H]; [left; exact H|right]);
    repeat (destruct H as [<-|H]; [repeat (left; reflexivity) || (repeat (try (left; reflexivity); right))|]); try destruct H.
Qed.
Lemma builtin_wf s w : type_wf (PBuiltin s w) -> In s (bit_types ++ plain_types).
Proof. intros W. apply builtin_listed. destruct w; [left|]; exact W. Qed.
Lemma builtin_as {R} : reads_as (@builtin R) type_tokens (fun t => type_wf t /\ exists s w, t = PBuiltin s w).
Proof.
  intros k ts r H. unfold builtin in H. apply predict_inv in H as [H|[_ H]].
  - unfold pbind, pret in H. apply one_as in H as (s & rest & -> & M & H). apply tok_inv in H as (rest2 & -> & H).
    apply lit_as in H as (w & rest3 & -> & _ & H). exists (PBuiltin s (Some w)), rest3. eauto 8.
  - apply predict_inv in H as [H|[_ H]]; unfold pbind, pret in H; apply one_as in H as (s & rest & -> & M & H);
      exists (PBuiltin s None), rest; repeat split; eauto; apply builtin_listed, in_or_app; auto.
Qed.
Lemma type_as {R} n : reads_as (@type_ref R n) type_tokens type_wf.
Proof.
  induction n as [|m IH]; intros k ts r H; cbn [type_ref] in H; [discriminate|].
  apply look_inv in H as [(_ & H)|(_ & H)].
  - apply builtin_as in H as (t & rest & -> & (Y & _) & H). eauto.
  - unfold pbind at 1 in H. apply qualified_as in H as (ids & rest & -> & N & H).
    apply predict_inv in H as [H|[_ H]]; unfold pbind, pret in H.
    + apply tok_inv in H as (rest1 & -> & H).
      apply (commas_as m _ _ _ IH) in H as (l & rest2 & -> & (N2 & F) & H).
      apply tok_inv in H as (rest3 & -> & H). exists (PName ids l), rest3.
      destruct l as [|a l]; [congruence|].
      rewrite type_tokens_name, type_wf_name. repeat split; auto. napp. reflexivity.
    + exists (PName ids []), rest. rewrite type_wf_name. repeat split; auto.
Qed.
Lemma argument_as {R} n : reads_as (@argument R n) arg_tokens (fun _ => True).
Proof.
  intros k ts r H. unfold argument in H. apply look_inv in H as [(_ & H)|(_ & H)]; unfold pbind, pret in H.
  - apply tok_inv in H as (rest & -> & H). apply ident_inv in H as (s & rest2 & -> & H). exists (PExplicit s), rest2. auto.
  - apply expression_as in H as (e & rest & -> & _ & H). exists (PArg e), rest. auto.
Qed.
(** What is known of an instantiation that was read. *)
Definition inst_shape (t : pinst) : Prop :=
  type_wf (pi_type t) /\ match pi_suffix t with PArgs l => l <> [] | _ => True end.
Lemma instantiation_as {R} n : reads_as (@instantiation R n) inst_tokens inst_shape.
Proof.
  intros k ts r H. unfold instantiation in H. unfold pbind at 1 in H. apply type_as in H as (t & rest & -> & W & H).
  apply look_inv in H as [(_ & H)|(_ & H)]; unfold pbind, pret in H.
  - apply tok_inv in H as (rest1 & -> & H).
    apply (commas_as n _ _ _ (argument_as n)) in H as (l & rest2 & -> & (N & _) & H).
    apply tok_inv in H as (rest3 & -> & H). exists (PInst t (PArgs l)), rest3.
    repeat split; auto. unfold inst_tokens. cbn [pi_type pi_suffix suffix_tokens app]. napp. reflexivity.
  - apply look_inv in H as [(_ & H)|(_ & H)].
    + apply tok_inv in H as (rest1 & -> & H). apply expression_as in H as (e & rest2 & -> & _ & H).
      apply tok_inv in H as (rest3 & -> & H). exists (PInst t (PLength e)), rest3.
      repeat split; auto. unfold inst_tokens. cbn [pi_type pi_suffix suffix_tokens app]. napp. reflexivity.
    + exists (PInst t PNone), rest. repeat split; auto. unfold inst_tokens. cbn [pi_type pi_suffix suffix_tokens].
      now rewrite app_nil_r.
Qed.
Lemma range_as {R} n :
  reads_as (opt (la "[") (tok "[" ;; let%p e := opt la_expr (expression n 0) in tok "]" ;; pret e) : parser R (option (option pexpr)))
    range_tokens (fun _ => True).
Proof.
  intros k ts r H. unfold opt at 1 in H. apply look_inv in H as [(_ & H)|(_ & H)]; unfold pbind, pret in H.
  - apply tok_inv in H as (rest & -> & H).
    apply (opt_as _ _ _ _ (expression_as n 0)) in H as (e & rest2 & -> & _ & H).
    apply tok_inv in H as (rest3 & -> & H). exists (Some e), rest3. repeat split; [|exact H].
    destruct e as [e|]; cbn [range_tokens opt_tokens app]; [now rewrite <- app_assoc|reflexivity].
  - exists None, ts. auto.
Qed.
Lemma member_as {R} n : reads_as (@member R n) member_tokens (fun m => inst_shape (pm_inst m)).
Proof.
  intros k ts r H. unfold member in H. unfold pbind, pret in H.
  apply flag_as in H as (pk & r1 & -> & _ & H). apply flag_as in H as (im & r2 & -> & _ & H).
  apply instantiation_as in H as (t & r3 & -> & W & H). apply ident_inv in H as (x & r4 & -> & H).
  apply range_as in H as (rg & r5 & -> & _ & H). exists (PMember pk im t x rg), r5.
  repeat split; auto; try apply W. unfold member_tokens. cbn [pm_packed pm_implicit pm_inst pm_name pm_range].
  napp; reflexivity.
Qed.
Lemma behind_as {R} n s :
  reads_as (opt (la s) (tok s ;; expression n 0) : parser R (option pexpr)) (behind s) (fun _ => True).
Proof.
  intros k ts r H. unfold opt in H. apply look_inv in H as [(_ & H)|(_ & H)]; unfold pbind, pret in H.
  - apply tok_inv in H as (rest & -> & H). apply expression_as in H as (e & rest2 & -> & _ & H).
    exists (Some e), rest2. auto.
  - exists None, ts. auto.
Qed.
(** The tokens of a field behind its offset. *)
Definition tail_tokens (f : pfield) : list token :=
  word (pf_extend f) "extend" ++ word (pf_optional f) "optional" ++ member_tokens (pf_member f)
  ++ behind "=" (pf_init f) ++ behind "if" (pf_clause f) ++ behind ":" (pf_constraint f) ++ [K ";"].
Lemma field_tail_as {R} n al off : reads_as (@field_tail R n al off) tail_tokens
  (fun f => pf_align f = al /\ pf_offset f = off /\ inst_shape (pm_inst (pf_member f))).
Proof.
  intros k ts r H. unfold field_tail, constraint in H. unfold pbind, pret in H.
  apply flag_as in H as (ex & r1 & -> & _ & H). apply flag_as in H as (op & r2 & -> & _ & H).
  apply member_as in H as (m & r3 & -> & W & H).
  apply (behind_as n) in H as (i & r4 & -> & _ & H). apply (behind_as n) in H as (c & r5 & -> & _ & H).
  apply (behind_as n) in H as (con & r6 & -> & _ & H). apply tok_inv in H as (r7 & -> & H).
  exists (PField al off ex op m i c con), r7. repeat split; try apply W; [|exact H].
  unfold tail_tokens. cbn [pf_extend pf_optional pf_member pf_init pf_clause pf_constraint]. napp; reflexivity.
Qed.
Lemma align_as {R} n :
  reads_as (opt (la "align") (tok "align" ;; tok "(" ;; let%p e := expression n 0 in tok ")" ;; tok ":" ;; pret e) : parser R (option pexpr))
    align_tokens (fun _ => True).
Proof.
  intros k ts r H. unfold opt in H. apply look_inv in H as [(_ & H)|(_ & H)]; unfold pbind, pret in H.
  - apply tok_inv in H as (r1 & -> & H). apply tok_inv in H as (r2 & -> & H).
    apply expression_as in H as (e & r3 & -> & _ & H).
    apply tok_inv in H as (r4 & -> & H). apply tok_inv in H as (r5 & -> & H).
    exists (Some e), r5. repeat split; [|exact H]. cbn [align_tokens app]. now rewrite <- app_assoc.
  - exists None, ts. auto.
Qed.
(** What is known of a field, a case and a declaration. *)
Definition field_shape (f : pfield) : Prop := inst_shape (pm_inst (pf_member f)).
Definition cfield_shape (f : pcfield) : Prop := inst_shape (pm_inst (pc_member f)).
Definition fun_shape (g : pfun) : Prop := type_wf (pfn_type g).
Definition case_shape (c : list pexpr * option pcfield) : Prop := fst c <> [] /\ opt_wf cfield_shape (snd c).
Definition other_shape (o : pother) : Prop :=
  match o with
  | PRules _ l => True
  | PTable _ _ _ fl c _ => Forall (fun f => inst_shape (ptf_inst f)) fl
  | PDatabase _ fl => fl <> [] /\ Forall (fun f => inst_shape (fst f)) fl
  | PService _ ms => Forall (fun m => type_wf (pmt_result m) /\ type_wf (pmt_argument m)) ms
  | PPubsub _ ms => Forall (fun m => type_wf (pmg_type m)) ms
  end.
Definition decl_shape (d : pdecl) : Prop :=
  match d with
  | PStruct _ tps ps fl gs => Forall param_wf ps /\ Forall field_shape fl /\ Forall fun_shape gs
  | PChoice _ tps ps sel cs d gs =>
      ps <> [] /\ Forall param_wf ps /\ Forall case_shape cs /\ opt_wf (opt_wf cfield_shape) d /\ Forall fun_shape gs
  | PUnion _ tps ps fl gs => Forall param_wf ps /\ Forall cfield_shape fl /\ Forall fun_shape gs
  | PEnum t _ l _ => inst_shape t /\ l <> []
  | PMask t _ l _ => inst_shape t /\ l <> []
  | PConst t _ e => inst_shape t
  | PSubtype t _ | PInstantiate t _ => type_wf t
  | POther o => other_shape o
  end.
Definition file_shape (f : pfile) : Prop :=
  opt_wf (fun l => l <> []) (pl_package f) /\ Forall import_wf (pl_imports f) /\ Forall decl_shape (pl_decls f).
Lemma field_as {R} n : reads_as (@field R n) field_tokens field_shape.
Proof.
  intros k ts r H. unfold field in H. unfold pbind at 1 in H.
  apply align_as in H as (al & r1 & -> & _ & H). apply predict_inv in H as [H|[_ H]].
  - unfold pbind in H. apply expression_as in H as (e & r2 & -> & _ & H). apply tok_inv in H as (r3 & -> & H).
    apply field_tail_as in H as (f & r4 & -> & (A & B & W) & H). exists f, r4. split; [|split; [exact W|exact H]].
    unfold field_tokens. fold (tail_tokens f). rewrite A, B. cbn [offset_tokens]. rewrite <- !app_assoc. reflexivity.
  - apply field_tail_as in H as (f & r4 & -> & (A & B & W) & H). exists f, r4. split; [|split; [exact W|exact H]].
    unfold field_tokens. fold (tail_tokens f). rewrite A, B. cbn [offset_tokens]. rewrite <- !app_assoc. reflexivity.
Qed.
Lemma cfield_as {R} n : reads_as (@choice_field R n) cfield_tokens cfield_shape.
Proof.
  intros k ts r H. unfold choice_field, constraint, pbind, pret in H.
  apply member_as in H as (m & r1 & -> & W & H). apply (behind_as n) in H as (c & r2 & -> & _ & H).
  exists (PCField m c), r2. split; [|split; [exact W|exact H]]. unfold cfield_tokens. cbn. now rewrite <- app_assoc.
Qed.
Lemma function_as {R} n : reads_as (@function R n) fun_tokens fun_shape.
Proof.
  intros k ts r H. unfold function, pbind, pret in H.
  apply tok_inv in H as (r1 & -> & H). apply type_as in H as (t & r2 & -> & W & H).
  apply ident_inv in H as (x & r3 & -> & H).
  do 4 (apply tok_inv in H as (? & -> & H)).
  apply expression_as in H as (e & r4 & -> & _ & H).
  do 2 (apply tok_inv in H as (? & -> & H)).
  eexists (PFun t x e), _. split; [|split; [exact W|exact H]]. unfold fun_tokens. cbn [pfn_type pfn_name pfn_body].
  cbn [app]. rewrite <- !app_assoc. cbn [app]. now rewrite <- app_assoc.
Qed.
Lemma functions_as {R} n : reads_as (@functions R n) (flat_map fun_tokens) (Forall fun_shape).
Proof. apply many_as, function_as. Qed.
Lemma params_as {R} n : reads_as (@type_params R n) params_tokens (fun l => l <> [] /\ Forall param_wf l).
Proof.
  intros k ts r H. unfold type_params in H. unfold pbind at 1 in H. apply tok_inv in H as (r1 & -> & H).
  assert (HP : reads_as (let%p t := type_ref n in let%p x := ident in pret (PParam t x) : parser R pparam) param_tokens param_wf).
  { intros k0 ts0 r0 H0. unfold pbind, pret in H0. apply type_as in H0 as (t & r2 & -> & W & H0).
    apply ident_inv in H0 as (x & r3 & -> & H0). exists (PParam t x), r3. split; [|split; [exact W|exact H0]].
    unfold param_tokens. cbn. now rewrite <- app_assoc. }
  unfold pbind at 1 in H. apply (commas_as n _ _ _ HP) in H as (l & r2 & -> & (N & F) & H).
  unfold pbind, pret in H. apply tok_inv in H as (r3 & -> & H). exists l, r3. repeat split; auto.
  destruct l; [congruence|]. unfold params_tokens. cbn [app]. now rewrite <- app_assoc.
Qed.
Lemma opt_params_as {R} n : reads_as (@opt_params R n) params_tokens (Forall param_wf).
Proof.
  intros k ts r H. unfold opt_params in H. apply look_inv in H as [(_ & H)|(_ & H)].
  - apply params_as in H as (l & r2 & -> & (_ & F) & H). exists l, r2. auto.
  - exists [], ts. auto.
Qed.
Lemma templ_as {R} n : reads_as (@templ_params R n) templ_tokens (fun _ => True).
Proof.
  intros k ts r H. unfold templ_params in H. apply look_inv in H as [(_ & H)|(_ & H)]; unfold pbind, pret in H.
  - apply tok_inv in H as (r1 & -> & H). apply (commas_as n _ _ _ ident_as) in H as (l & r2 & -> & (N & _) & H).
    apply tok_inv in H as (r3 & -> & H). exists l, r3. repeat split; auto.
    destruct l; [congruence|]. unfold templ_tokens. cbn [app]. now rewrite <- app_assoc.
  - exists [], ts. auto.
Qed.
Lemma structure_as {R} n : reads_as (@structure R n) decl_tokens decl_shape.
Proof.
  intros k ts r H. unfold structure, pbind, pret in H.
  apply tok_inv in H as (r1 & -> & H). apply ident_inv in H as (x & r2 & -> & H).
  apply templ_as in H as (tps & r3 & -> & _ & H). apply opt_params_as in H as (ps & r4 & -> & Wp & H).
  apply tok_inv in H as (r5 & -> & H).
  apply (many_as n la_field _ _ _ (field_as n)) in H as (fl & r6 & -> & Wf & H).
  apply functions_as in H as (gs & r7 & -> & Wg & H). apply tok_inv in H as (r8 & -> & H).
  apply tok_inv in H as (r9 & -> & H). exists (PStruct x tps ps fl gs), r9. split; [|split; [cbn; auto|exact H]].
  cbn [decl_tokens]. napp. reflexivity.
Qed.
Lemma case_as {R} n : reads_as (@choice_case R n) (fun e => [K "case"] ++ expr_tokens e ++ [K ":"]) (fun _ => True).
Proof.
  intros k ts r H. unfold choice_case, pbind, pret in H. apply tok_inv in H as (r1 & -> & H).
  apply expression_as in H as (e & r2 & -> & _ & H). apply tok_inv in H as (r3 & -> & H).
  exists e, r3. repeat split; [|exact H]. napp. reflexivity.
Qed.
Lemma opt_cfield_as {R} n : reads_as (opt la_member (choice_field n) : parser R (option pcfield)) opt_cfield_tokens (opt_wf cfield_shape).
Proof. intros k ts r H. apply (opt_as _ _ _ _ (cfield_as n)) in H. exact H. Qed.
Lemma cases_as {R} n : reads_as (@choice_cases R n) case_tokens case_shape.
Proof.
  intros k ts r H. unfold choice_cases, pbind, pret in H.
  apply case_as in H as (e & r1 & -> & _ & H).
  apply (many_as n (la "case") _ _ _ (case_as n)) in H as (l & r2 & -> & _ & H).
  apply opt_cfield_as in H as (f & r3 & -> & W & H). apply tok_inv in H as (r4 & -> & H).
  exists (e :: l, f), r4. split; [|split; [split; [discriminate|exact W]|exact H]]. unfold case_tokens. cbn [fst snd flat_map]. napp. reflexivity.
Qed.
Lemma default_as {R} n :
  reads_as (opt (la "default") (tok "default" ;; tok ":" ;; let%p f := opt la_member (choice_field n) in tok ";" ;; pret f) : parser R (option (option pcfield)))
    default_tokens (opt_wf (opt_wf cfield_shape)).
Proof.
  intros k ts r H. unfold opt at 1 in H. apply look_inv in H as [(_ & H)|(_ & H)]; unfold pbind, pret in H.
  - apply tok_inv in H as (r1 & -> & H). apply tok_inv in H as (r2 & -> & H).
    apply (opt_cfield_as n) in H as (f & r3 & -> & W & H). apply tok_inv in H as (r4 & -> & H).
    exists (Some f), r4. split; [|split; [exact W|exact H]]. cbn [default_tokens]. napp. reflexivity.
  - exists None, ts. split; [reflexivity|split; [exact Logic.I|exact H]].
Qed.
Lemma choice_as {R} n : reads_as (@choice R n) decl_tokens decl_shape.
Proof.
  intros k ts r H. unfold choice in H. unfold pbind at 1 2 3 4 5 6 7 8 9 in H.
  apply tok_inv in H as (r1 & -> & H). apply ident_inv in H as (x & r2 & -> & H).
  apply templ_as in H as (tps & r3 & -> & _ & H). apply params_as in H as (ps & r4 & -> & (Np & Wp) & H).
  apply tok_inv in H as (r5 & -> & H). apply expression_as in H as (sel & r6 & -> & _ & H).
  apply tok_inv in H as (r7 & -> & H).
  apply (many_as n (la "case") _ _ _ (cases_as n)) in H as (cs & r8 & -> & Wc & H).
  apply default_as in H as (d & r9 & -> & Wd & H). unfold pbind, pret in H.
  apply functions_as in H as (gs & r10 & -> & Wg & H). apply tok_inv in H as (r11 & -> & H).
  apply tok_inv in H as (r12 & -> & H). exists (PChoice x tps ps sel cs d gs), r12. split; [|split; [cbn; auto 6|exact H]].
  cbn [decl_tokens]. napp. reflexivity.
Qed.
Lemma union_as {R} n : reads_as (@union R n) decl_tokens decl_shape.
Proof.
  intros k ts r H. unfold union in H. unfold pbind at 1 2 3 4 5 6 in H.
  apply tok_inv in H as (r1 & -> & H). apply ident_inv in H as (x & r2 & -> & H).
  apply templ_as in H as (tps & r3 & -> & _ & H). apply opt_params_as in H as (ps & r4 & -> & Wp & H).
  apply tok_inv in H as (r5 & -> & H).
  assert (HU : reads_as (let%p f := choice_field n in tok ";" ;; pret f : parser R pcfield)
                 (fun f => cfield_tokens f ++ [K ";"]) cfield_shape).
  { intros k0 ts0 r0 H0. unfold pbind, pret in H0. apply cfield_as in H0 as (f & s1 & -> & W & H0).
    apply tok_inv in H0 as (s2 & -> & H0). exists f, s2. split; [|split; [exact W|exact H0]]. napp. reflexivity. }
  apply (many_as n la_member _ _ _ HU) in H as (fl & r6 & -> & Wf & H). unfold pbind, pret in H.
  apply functions_as in H as (gs & r7 & -> & Wg & H). apply tok_inv in H as (r8 & -> & H).
  apply tok_inv in H as (r9 & -> & H). exists (PUnion x tps ps fl gs), r9. split; [|split; [cbn; auto|exact H]].
  cbn [decl_tokens]. napp. reflexivity.
Qed.
Lemma enum_item_as {R} n : reads_as (@enum_item R n) item_tokens (fun _ => True).
Proof.
  intros k ts r H. unfold enum_item, value in H. unfold pbind at 1 in H.
  apply look_inv in H as [(_ & H)|(_ & H)].
  - unfold pbind, pret in H. apply tok_inv in H as (r1 & -> & H). apply ident_inv in H as (x & r2 & -> & H).
    apply (behind_as n) in H as (v & r3 & -> & _ & H). exists (PItem (Some Deprecated) x v), r3. auto.
  - apply look_inv in H as [(_ & H)|(_ & H)]; unfold pbind, pret in H.
    + apply tok_inv in H as (r1 & -> & H). apply ident_inv in H as (x & r2 & -> & H).
      apply (behind_as n) in H as (v & r3 & -> & _ & H). exists (PItem (Some Removed) x v), r3. auto.
    + apply ident_inv in H as (x & r2 & -> & H).
      apply (behind_as n) in H as (v & r3 & -> & _ & H). exists (PItem None x v), r3. auto.
Qed.
Lemma mask_item_as {R} n : reads_as (@mask_item R n) mask_item_tokens (fun _ => True).
Proof.
  intros k ts r H. unfold mask_item, value, pbind, pret in H. apply ident_inv in H as (x & r2 & -> & H).
  apply (behind_as n) in H as (v & r3 & -> & _ & H). exists (x, v), r3. auto.
Qed.
Lemma more_as {R A} n (p : parser R A) f : reads_as p f (fun _ => True) ->
  reads_as (more n p) (flat_map (fun x => K "," :: f x)) (fun _ => True).
Proof.
  intros HP. induction n as [|m IH]; intros k ts r H; cbn [more] in H; [discriminate|].
  apply predict_inv in H as [H|[_ H]]; unfold pbind, pret in H.
  - apply tok_inv in H as (r1 & -> & H). apply HP in H as (a & r2 & -> & _ & H).
    apply IH in H as (l & r3 & -> & _ & H). exists (a :: l), r3. repeat split; [|exact H].
    cbn [flat_map]. napp. reflexivity.
  - exists [], ts. auto.
Qed.
Lemma items_as {R A} n (p : parser R A) f : reads_as p f (fun _ => True) ->
  reads_as (items n p) (fun x => separated f (fst x) ++ word (snd x) ",") (fun x => fst x <> []).
Proof.
  intros HP k ts r H. unfold items, pbind, pret in H. apply HP in H as (a & r1 & -> & _ & H).
  apply (more_as n _ _ HP) in H as (l & r2 & -> & _ & H). apply flag_as in H as (c & r3 & -> & _ & H).
  exists (a :: l, c), r3. split; [|split; [discriminate|exact H]]. cbn [fst snd]. rewrite separated_cons. napp. reflexivity.
Qed.
Lemma rule_group_as {R} n : reads_as (@rule_group R n) other_tokens other_shape.
Proof.
  intros k ts r H. unfold rule_group, pbind, pret in H. apply tok_inv in H as (r1 & -> & H).
  apply ident_inv in H as (x & r2 & -> & H). apply tok_inv in H as (r3 & -> & H).
  assert (A : reads_as (@rule R n) (fun e => [K "rule"] ++ expr_tokens e ++ [K ";"]) (fun _ => True)).
  { clear. intros k ts r H. unfold rule, pbind, pret in H. apply tok_inv in H as (r1 & -> & H).
    apply expression_as in H as (e & r2 & -> & _ & H). apply tok_inv in H as (r3 & -> & H).
    exists e, r3. split; [|split; [exact Logic.I|exact H]]. napp. reflexivity. }
  apply (many_as n _ _ _ _ A) in H as (l & r4 & -> & _ & H).
  apply tok_inv in H as (r5 & -> & H). apply tok_inv in H as (r6 & -> & H).
  exists (PRules x l), r6. split; [|split; [exact Logic.I|exact H]]. cbn [other_tokens]. napp. reflexivity.
Qed.
Lemma table_field_as {R} n : reads_as (@table_field R n) tfield_tokens (fun f => inst_shape (ptf_inst f)).
Proof.
  intros k ts r H. unfold table_field, pbind, pret in H. apply flag_as in H as (v & r1 & -> & _ & H).
  apply instantiation_as in H as (t & r2 & -> & W & H). apply ident_inv in H as (x & r3 & -> & H).
  apply (behind_as n) in H as (c & r4 & -> & _ & H). apply tok_inv in H as (r5 & -> & H).
  exists (PTField v t x c), r5. split; [|split; [exact W|exact H]]. unfold tfield_tokens.
  cbn [ptf_virtual ptf_inst ptf_name ptf_sql]. napp. reflexivity.
Qed.
Lemma table_as {R} n : reads_as (@table R n) other_tokens other_shape.
Proof.
  intros k ts r H. unfold table, pret in H. unfold pbind at 1 2 3 4 5 6 in H. apply tok_inv in H as (r1 & -> & H).
  apply ident_inv in H as (x & r2 & -> & H). apply templ_as in H as (tps & r3 & -> & _ & H).
  assert (A : reads_as (tok "using" ;; ident : parser R string) (fun y => [K "using"; I y]) (fun _ => True)).
  { clear. intros k ts r H. unfold pbind, pret in H. apply tok_inv in H as (r1 & -> & H).
    apply ident_inv in H as (x & r2 & -> & H). exists x, r2. auto. }
  apply (opt_as _ _ _ _ A) in H as (u & r4 & -> & _ & H). apply tok_inv in H as (r5 & -> & H).
  apply (many_as n _ _ _ _ (table_field_as n)) in H as (fl & r6 & -> & W & H).
  unfold pbind at 1 in H.
  assert (B : reads_as (let%p e := sql_constraint n in tok ";" ;; pret e : parser R pexpr)
                (fun e => [K "sql"] ++ expr_tokens e ++ [K ";"]) (fun _ => True)).
  { clear. intros k ts r H. unfold sql_constraint, pbind, pret in H. apply tok_inv in H as (r1 & -> & H).
    apply expression_as in H as (e & r2 & -> & _ & H). apply tok_inv in H as (r3 & -> & H).
    exists e, r3. split; [|split; [exact Logic.I|exact H]]. napp. reflexivity. }
  apply (opt_as _ _ _ _ B) in H as (c & r7 & -> & _ & H).
  assert (C : reads_as (look (la "sql_without_rowid") (tok "sql_without_rowid" ;; tok ";" ;; pret true) (pret false) : parser R bool)
                (fun w => if w then [K "sql_without_rowid"; K ";"] else []) (fun _ => True)).
  { clear. intros k ts r H. apply look_inv in H as [(_ & H)|(_ & H)]; unfold pbind, pret in H.
    - apply tok_inv in H as (r1 & -> & H). apply tok_inv in H as (r2 & -> & H). exists true, r2. auto.
    - exists false, ts. auto. }
  unfold pbind at 1 in H. apply C in H as (w & r8 & -> & _ & H). unfold pbind in H.
  apply tok_inv in H as (r9 & -> & H). apply tok_inv in H as (r10 & -> & H).
  exists (PTable x tps u fl c w), r10. split; [|split; [exact W|exact H]]. cbn [other_tokens].
  napp. destruct u, c, w; reflexivity.
Qed.
Lemma database_field_as {R} n : reads_as (@database_field R n) (fun f => inst_tokens (fst f) ++ [I (snd f); K ";"]) (fun f => inst_shape (fst f)).
Proof.
  intros k ts r H. unfold database_field, pbind, pret in H.
  apply instantiation_as in H as (t & r2 & -> & W & H). apply ident_inv in H as (x & r3 & -> & H).
  apply tok_inv in H as (r5 & -> & H).
  exists (t, x), r5. split; [|split; [exact W|exact H]]. cbn [fst snd]. napp. reflexivity.
Qed.
Lemma database_as {R} n : reads_as (@database R n) other_tokens other_shape.
Proof.
  intros k ts r H. unfold database, pbind, pret in H. apply tok_inv in H as (r1 & -> & H).
  apply ident_inv in H as (x & r2 & -> & H). apply tok_inv in H as (r3 & -> & H).
  apply database_field_as in H as (f & r4 & -> & W & H).
  apply (many_as n _ _ _ _ (database_field_as n)) in H as (l & r5 & -> & Wl & H).
  apply tok_inv in H as (r6 & -> & H). apply tok_inv in H as (r7 & -> & H).
  exists (PDatabase x (f :: l)), r7. split; [|split; [|exact H]].
  - cbn [other_tokens flat_map]. napp. reflexivity.
  - split; [discriminate|]. constructor; assumption.
Qed.
Lemma service_as {R} n : reads_as (@service R n) other_tokens other_shape.
Proof.
  intros k ts r H. unfold service, pbind, pret in H. apply tok_inv in H as (r1 & -> & H).
  apply ident_inv in H as (x & r2 & -> & H). apply tok_inv in H as (r3 & -> & H).
  assert (A : reads_as (@method R n) method_tokens (fun m => type_wf (pmt_result m) /\ type_wf (pmt_argument m))).
  { clear. intros k ts r H. unfold method, pbind, pret in H. apply type_as in H as (t & r1 & -> & W & H).
    apply ident_inv in H as (x & r2 & -> & H). apply tok_inv in H as (r3 & -> & H).
    apply type_as in H as (u & r4 & -> & V & H). do 2 (apply tok_inv in H as (? & -> & H)).
    eexists (PMethod t x u), _. split; [|split; [exact (conj W V)|exact H]]. unfold method_tokens.
    cbn [pmt_result pmt_name pmt_argument]. napp. reflexivity. }
  apply (many_as n _ _ _ _ A) in H as (l & r4 & -> & W & H).
  apply tok_inv in H as (r5 & -> & H). apply tok_inv in H as (r6 & -> & H).
  exists (PService x l), r6. split; [|split; [exact W|exact H]]. cbn [other_tokens]. napp. reflexivity.
Qed.
Lemma message_as {R} n : reads_as (@message R n) message_tokens (fun m => type_wf (pmg_type m)).
Proof.
  intros k ts r H. unfold message in H. unfold pbind at 1 in H.
  assert (A : reads_as (look (la "publish") (tok "publish" ;; pret (Some Publish))
               (look (la "subscribe") (tok "subscribe" ;; pret (Some Subscribe)) (pret None)) : parser R (option access))
             access_tokens (fun _ => True)).
  { clear. intros k ts r H. apply look_inv in H as [(_ & H)|(_ & H)]; [|apply look_inv in H as [(_ & H)|(_ & H)]]; unfold pbind, pret in H.
    - apply tok_inv in H as (r1 & -> & H). exists (Some Publish), r1. auto.
    - apply tok_inv in H as (r1 & -> & H). exists (Some Subscribe), r1. auto.
    - exists None, ts. auto. }
  apply A in H as (a & r1 & -> & _ & H). unfold pbind, pret in H. do 2 (apply tok_inv in H as (? & -> & H)).
  apply expression_as in H as (e & r2 & -> & _ & H). apply tok_inv in H as (r3 & -> & H).
  apply type_as in H as (t & r4 & -> & W & H). apply ident_inv in H as (x & r5 & -> & H).
  apply tok_inv in H as (r6 & -> & H). exists (PMessage a e t x), r6. split; [|split; [exact W|exact H]].
  unfold message_tokens. cbn [pmg_access pmg_topic pmg_type pmg_name]. napp. reflexivity.
Qed.
Lemma pubsub_as {R} n : reads_as (@pubsub R n) other_tokens other_shape.
Proof.
  intros k ts r H. unfold pubsub, pbind, pret in H. apply tok_inv in H as (r1 & -> & H).
  apply ident_inv in H as (x & r2 & -> & H). apply tok_inv in H as (r3 & -> & H).
  apply (many_as n _ _ _ _ (message_as n)) in H as (l & r4 & -> & W & H).
  apply tok_inv in H as (r5 & -> & H). apply tok_inv in H as (r6 & -> & H).
  exists (PPubsub x l), r6. split; [|split; [exact W|exact H]]. cbn [other_tokens]. napp. reflexivity.
Qed.
Lemma other_as {R} n : reads_as (@other R n) other_tokens other_shape.
Proof.
  intros k ts r H. unfold other in H. repeat (apply look_inv in H as [(_ & H)|(_ & H)]); [..|discriminate].
  - exact (rule_group_as n k ts r H).
  - exact (table_as n k ts r H).
  - exact (database_as n k ts r H).
  - exact (service_as n k ts r H).
  - exact (pubsub_as n k ts r H).
Qed.
Lemma directive_as {R} n : reads_as (@directive R n) decl_tokens decl_shape.
Proof.
  intros k ts r H. unfold directive in H.
  do 8 (try (apply look_inv in H as [(_ & H)|(_ & H)]));
    [..|unfold pbind, pret in H; apply other_as in H as (o & r1 & -> & W & H); exists (POther o), r1; auto].
  - unfold constant, pbind, pret in H. apply tok_inv in H as (r1 & -> & H).
    apply instantiation_as in H as (t & r2 & -> & W & H). apply ident_inv in H as (x & r3 & -> & H).
    apply tok_inv in H as (r4 & -> & H). apply expression_as in H as (e & r5 & -> & _ & H).
    apply tok_inv in H as (r6 & -> & H). exists (PConst t x e), r6. split; [|split; [first [exact W|exact (conj W N)]|exact H]].
    cbn [decl_tokens]. napp. reflexivity.
  - unfold subtype, pbind, pret in H. apply tok_inv in H as (r1 & -> & H).
    apply type_as in H as (t & r2 & -> & W & H). apply ident_inv in H as (x & r3 & -> & H).
    apply tok_inv in H as (r4 & -> & H). exists (PSubtype t x), r4. split; [|split; [first [exact W|exact (conj W N)]|exact H]].
    cbn [decl_tokens]. napp. reflexivity.
  - exact (structure_as n k ts r H).
  - exact (choice_as n k ts r H).
  - exact (union_as n k ts r H).
  - unfold enum, pbind, pret in H. apply tok_inv in H as (r1 & -> & H).
    apply instantiation_as in H as (t & r2 & -> & W & H). apply ident_inv in H as (x & r3 & -> & H).
    apply tok_inv in H as (r4 & -> & H). apply (items_as n _ _ (enum_item_as n)) in H as (l & r5 & -> & N & H).
    apply tok_inv in H as (r6 & -> & H). apply tok_inv in H as (r7 & -> & H).
    exists (PEnum t x (fst l) (snd l)), r7. split; [|split; [first [exact W|exact (conj W N)]|exact H]].
    cbn [decl_tokens]. napp. reflexivity.
  - unfold bitmask, pbind, pret in H. apply tok_inv in H as (r1 & -> & H).
    apply instantiation_as in H as (t & r2 & -> & W & H). apply ident_inv in H as (x & r3 & -> & H).
    apply tok_inv in H as (r4 & -> & H). apply (items_as n _ _ (mask_item_as n)) in H as (l & r5 & -> & N & H).
    apply tok_inv in H as (r6 & -> & H). apply tok_inv in H as (r7 & -> & H).
    exists (PMask t x (fst l) (snd l)), r7. split; [|split; [first [exact W|exact (conj W N)]|exact H]].
    cbn [decl_tokens]. napp. reflexivity.
  - unfold instantiate_decl, pbind, pret in H. apply tok_inv in H as (r1 & -> & H).
    apply type_as in H as (t & r2 & -> & W & H). apply ident_inv in H as (x & r3 & -> & H).
    apply tok_inv in H as (r4 & -> & H). exists (PInstantiate t x), r4. split; [|split; [first [exact W|exact (conj W N)]|exact H]].
    cbn [decl_tokens]. napp. reflexivity.
Qed.
Lemma import_path_as {R} n : reads_as (@import_path R n) (flat_map (fun x => [I x; K "."])) (fun _ => True).
Proof.
  induction n as [|m IH]; intros k ts r H; cbn [import_path] in H; [discriminate|].
  apply predict_inv in H as [H|[_ H]]; unfold pbind, pret in H.
  - apply ident_inv in H as (x & r1 & -> & H). apply tok_inv in H as (r2 & -> & H).
    apply IH in H as (l & r3 & -> & _ & H). exists (x :: l), r3. auto.
  - exists [], ts. auto.
Qed.
Lemma dotted_star a l : dotted (a :: l) ++ [K "."] = I a :: K "." :: flat_map (fun x => [I x; K "."]) l.
Proof.
  revert a. induction l as [|b tl IH]; intros a; [reflexivity|].
  change (dotted (a :: b :: tl)) with ([I a; K "."] ++ dotted (b :: tl)). rewrite <- app_assoc, IH. reflexivity.
Qed.
Lemma dotted_last a l b : dotted (a :: l ++ [b]) = I a :: K "." :: flat_map (fun x => [I x; K "."]) l ++ [I b].
Proof.
  revert a. induction l as [|c tl IH]; intros a; [reflexivity|].
  change (dotted (a :: (c :: tl) ++ [b])) with ([I a; K "."] ++ dotted (c :: tl ++ [b])). rewrite IH. reflexivity.
Qed.
Lemma import_as {R} n : reads_as (@import_decl R n) import_tokens import_wf.
Proof.
  intros k ts r H. unfold import_decl in H. unfold pbind at 1 2 3 4 5 in H.
  apply tok_inv in H as (r1 & -> & H). apply ident_inv in H as (a & r2 & -> & H).
  apply tok_inv in H as (r3 & -> & H). apply import_path_as in H as (l & r4 & -> & _ & H).
  apply look_inv in H as [(_ & H)|(_ & H)]; unfold pbind, pret in H.
  - apply ident_inv in H as (b & r5 & -> & H). apply tok_inv in H as (r6 & -> & H).
    exists (a :: l ++ [b], false), r6. split; [|split; [cbn; destruct l; discriminate|exact H]]. unfold import_tokens. cbn [fst snd].
    rewrite dotted_last. napp. reflexivity.
  - apply tok_inv in H as (r5 & -> & H). apply tok_inv in H as (r6 & -> & H).
    exists (a :: l, true), r6. split; [|split; [exact Logic.I|exact H]]. unfold import_tokens. cbn [fst snd].
    change [K "."; K "*"; K ";"] with ([K "."] ++ [K "*"; K ";"]). rewrite (app_assoc (dotted (a :: l))), dotted_star.
    napp. reflexivity.
Qed.
Lemma version_as {R} : reads_as (@version R) (fun s => [K "zserio_compatibility_version"; K "("; L TkStr s; K ")"; K ";"]) (fun _ => True).
Proof.
  intros k ts r H. unfold version, pbind, pret in H. apply tok_inv in H as (r1 & -> & H).
  apply tok_inv in H as (r2 & -> & H). apply lit_as in H as (s & r3 & -> & _ & H).
  apply tok_inv in H as (r4 & -> & H). apply tok_inv in H as (r5 & -> & H). exists s, r5. auto.
Qed.
Lemma package_name_as {R} n : reads_as (@package_name R n) (fun l => [K "package"] ++ dotted l ++ [K ";"]) (fun l => l <> []).
Proof.
  intros k ts r H. unfold package_name, pbind, pret in H. apply tok_inv in H as (r1 & -> & H).
  apply qualified_as in H as (l & r2 & -> & N & H). apply tok_inv in H as (r3 & -> & H). exists l, r3.
  split; [|split; [exact N|exact H]]. napp. reflexivity.
Qed.
Lemma package_as {R} n : reads_as (@package R n) file_tokens file_shape.
Proof.
  intros k ts r H. unfold package, pbind, pret in H.
  apply (opt_as _ _ _ _ version_as) in H as (v & r1 & -> & _ & H).
  apply (opt_as _ _ _ _ (package_name_as n)) in H as (nm & r2 & -> & Wn & H).
  apply (many_as n (la "import") _ _ _ (import_as n)) in H as (imps & r3 & -> & Wi & H).
  apply (many_as n la_directive _ _ _ (directive_as n)) in H as (ds & r4 & -> & Wd & H).
  exists (PFile v nm imps ds), r4. split; [|split; [exact (conj Wn (conj Wi Wd))|exact H]]. unfold file_tokens.
  cbn [pl_version pl_package pl_imports pl_decls]. rewrite <- !app_assoc. destruct v, nm; reflexivity.
Qed.
(** The tree that is read has the tokens of the file. *)
Lemma parse_read ts f : parse ts = Parsed f -> file_tokens f = ts /\ file_shape f.
Proof.
  intros H. unfold parse in H. revert H. generalize (S (List.length ts)). intros n H.
  apply (package_as n) in H as (g & rest & -> & W & H). unfold at_end in H. destruct rest; [|discriminate].
  injection H as ->. now rewrite app_nil_r.
Qed.
Theorem parse_reads ts f : parse ts = Parsed f -> file_tokens f = ts.
Proof. intros H. apply parse_read in H. apply H. Qed.

(** ** No rule runs out of fuel *)

Lemma quiet_opt {R A} first (p : parser R A) n : quiet 0 p n -> quiet 0 (opt first p) n.
Proof. intros Q. unfold opt. quiet0. Qed.
Lemma quiet_flag {R} s n : quiet 0 (@flag R s) n.
Proof. unfold flag. quiet0. Qed.
Lemma quiet_many {R A} first (p : parser R A) n : quiet 1 p n -> forall m, (m <= n)%nat -> quiet 0 (many m first p) m.
Proof.
  intros Q m. induction m as [|m IH]; intros L; [intros k ts E; lia|]. cbn [many].
  apply quiet_look; [|apply quiet_ret]. apply quiet_0. apply quiet_step.
  - apply (quiet_weaken 1 1 p n); auto.
  - intros a. assert (X : quiet 0 (many m first p) m) by (apply IH; lia). quiet0.
Qed.
Lemma quiet_commas {R A} (p : parser R A) n : quiet 1 p n -> quiet 1 (commas n p) n.
Proof.
  intros Q. unfold commas. apply quiet_bind1; [exact Q|]. intros a.
  assert (X : quiet 0 (many n (la ",") (tok "," ;; p)) n).
  { apply (quiet_many _ _ n); [|lia]. apply quiet_bind1; [apply quiet_tok|intros; now apply quiet_0]. }
  quiet0.
Qed.
Lemma quiet_qualified {R} n : quiet 1 (@qualified R n) n.
Proof.
  unfold qualified. apply quiet_bind1; [apply quiet_ident|]. intros a.
  assert (X : quiet 0 (many n (la ".") (tok "." ;; ident) : parser R (list string)) n) by (apply (quiet_many _ _ n); [quiet1|lia]).
  quiet0.
Qed.
Lemma quiet_builtin {R} n : quiet 1 (@builtin R) n.
Proof. unfold builtin. quiet1. Qed.
Lemma quiet_type {R} : forall n, quiet 1 (@type_ref R n) n.
Proof.
  induction n as [|m IH]; [intros k ts E; lia|]. cbn [type_ref].
  apply quiet_look; [apply quiet_builtin|]. 
  assert (Q : quiet 1 (@qualified R m) (S m)).
  { unfold qualified. apply quiet_step; [apply quiet_ident|]. intros a.
    assert (X : quiet 0 (many m (la ".") (tok "." ;; ident) : parser R (list string)) m) by (apply (quiet_many _ _ m); [quiet1|lia]).
    quiet0. }
  apply quiet_step; [exact Q|]. intros ids. pose proof (quiet_commas (type_ref m) m IH) as C. apply quiet_0 in C.
  apply quiet_predict; [|apply quiet_ret]. quiet0.
Qed.
Global Hint Resolve quiet_type quiet_opt quiet_flag quiet_commas quiet_qualified expression_quiet : quiet.
Lemma quiet_expr0 {R} n p : quiet 0 (@expression R n p) n. Proof. apply quiet_0, expression_quiet. Qed.
Lemma quiet_type0 {R} n : quiet 0 (@type_ref R n) n. Proof. apply quiet_0, quiet_type. Qed.
Ltac q :=
  pose proof @quiet_expr0; pose proof @expression_quiet; pose proof @quiet_type; pose proof @quiet_type0;
  pose proof @quiet_flag; pose proof @quiet_opt;
  first [quiet0 | quiet1].
Lemma quiet_argument {R} n : quiet 1 (@argument R n) n. Proof. unfold argument. q. Qed.
Lemma quiet_inst {R} n : quiet 1 (@instantiation R n) n.
Proof.
  unfold instantiation. apply quiet_bind1; [apply quiet_type|]. intros t.
  pose proof (quiet_0 _ _ (quiet_commas _ n (@quiet_argument R n))) as C. q.
Qed.
Lemma quiet_behind {R} n s : quiet 0 (opt (la s) (tok s ;; expression n 0) : parser R (option pexpr)) n.
Proof. apply quiet_opt. q. Qed.
Lemma quiet_member {R} n : quiet 1 (@member R n) n.
Proof.
  unfold member. pose proof (@quiet_inst R n).
  assert (quiet 0 (opt (la "[") (tok "[" ;; let%p e := opt la_expr (expression n 0) in tok "]" ;; pret e) : parser R (option (option pexpr))) n).
  { apply quiet_opt. apply quiet_bind0; [q|]. intros _. apply quiet_bind0; [apply quiet_opt; q|]. intros e. q. }
  apply quiet_bind01; [apply quiet_flag|]. intros pk. apply quiet_bind01; [apply quiet_flag|]. intros im.
  apply quiet_bind1; [auto|]. intros t. apply quiet_bind0; [q|]. intros x. apply quiet_bind0; [auto|]. intros. q.
Qed.
Lemma quiet_tail {R} n al off : quiet 1 (@field_tail R n al off) n.
Proof.
  unfold field_tail, constraint. apply quiet_bind01; [apply quiet_flag|]. intros ex. apply quiet_bind01; [apply quiet_flag|]. intros op.
  apply quiet_bind1; [apply quiet_member|]. intros m.
  do 3 (apply quiet_bind0; [apply quiet_behind|]; intros ?). q.
Qed.
Lemma quiet_field {R} n : quiet 1 (@field R n) n.
Proof.
  unfold field. apply quiet_bind01; [apply quiet_opt; q|]. intros al.
  pose proof (@quiet_tail R n). apply quiet_predict; [|auto].
  apply quiet_bind1; [apply expression_quiet|]. intros e. apply quiet_bind0; [q|]. intros _. now apply quiet_0.
Qed.
Lemma quiet_cfield {R} n : quiet 1 (@choice_field R n) n.
Proof.
  unfold choice_field, constraint. apply quiet_bind1; [apply quiet_member|]. intros m.
  apply quiet_bind0; [apply quiet_behind|]. intros. q.
Qed.
Lemma quiet_function {R} n : quiet 1 (@function R n) n. Proof. unfold function. q. Qed.
Lemma quiet_functions {R} n : quiet 0 (@functions R n) n.
Proof. apply (quiet_many _ _ n); [apply quiet_function|lia]. Qed.
Lemma quiet_params {R} n : quiet 1 (@type_params R n) n.
Proof.
  unfold type_params.
  assert (quiet 0 (commas n (let%p t := type_ref n in let%p x := ident in pret (PParam t x)) : parser R (list pparam)) n).
  { apply quiet_0, quiet_commas. q. }
  q.
Qed.
Lemma quiet_templ {R} n : quiet 0 (@templ_params R n) n.
Proof.
  unfold templ_params. assert (quiet 0 (commas n ident : parser R (list string)) n) by (apply quiet_0, quiet_commas; q). q.
Qed.
Lemma quiet_opt_params {R} n : quiet 0 (@opt_params R n) n.
Proof. unfold opt_params. apply quiet_look; [apply quiet_0, quiet_params|q]. Qed.
Lemma quiet_opt_cfield {R} n : quiet 0 (opt la_member (choice_field n) : parser R (option pcfield)) n.
Proof. apply quiet_opt, quiet_0, quiet_cfield. Qed.
Lemma quiet_case {R} n : quiet 1 (@choice_case R n) n. Proof. unfold choice_case. q. Qed.
Lemma quiet_cases {R} n : quiet 1 (@choice_cases R n) n.
Proof.
  unfold choice_cases. apply quiet_bind1; [apply quiet_case|]. intros e.
  apply quiet_bind0; [apply (quiet_many _ _ n); [apply quiet_case|lia]|]. intros l.
  apply quiet_bind0; [apply quiet_opt_cfield|]. intros. q.
Qed.
Lemma quiet_default {R} n :
  quiet 0 (opt (la "default") (tok "default" ;; tok ":" ;; let%p f := opt la_member (choice_field n) in tok ";" ;; pret f) : parser R (option (option pcfield))) n.
Proof. apply quiet_opt. pose proof (@quiet_opt_cfield R n). q. Qed.
Lemma quiet_structure {R} n : quiet 1 (@structure R n) n.
Proof.
  unfold structure. pose proof (@quiet_templ R n). pose proof (@quiet_opt_params R n). pose proof (@quiet_functions R n).
  assert (quiet 0 (many n la_field (@field R n)) n) by (apply (quiet_many _ _ n); [apply quiet_field|lia]). q.
Qed.
Lemma quiet_choice {R} n : quiet 1 (@choice R n) n.
Proof.
  unfold choice. pose proof (@quiet_templ R n). pose proof (quiet_0 _ _ (@quiet_params R n)). pose proof (@quiet_functions R n).
  pose proof (@quiet_default R n).
  assert (quiet 0 (many n (la "case") (@choice_cases R n)) n) by (apply (quiet_many _ _ n); [apply quiet_cases|lia]). q.
Qed.
Lemma quiet_union {R} n : quiet 1 (@union R n) n.
Proof.
  unfold union. pose proof (@quiet_templ R n). pose proof (@quiet_opt_params R n). pose proof (@quiet_functions R n).
  assert (quiet 0 (many n la_member (let%p f := choice_field n in tok ";" ;; pret f) : parser R (list pcfield)) n).
  { apply (quiet_many _ _ n); [|lia]. apply quiet_bind1; [apply quiet_cfield|]. intros. q. }
  q.
Qed.
Lemma quiet_enum_item {R} n : quiet 1 (@enum_item R n) n.
Proof. unfold enum_item, value. pose proof (@quiet_behind R n "="). q. Qed.
Lemma quiet_mask_item {R} n : quiet 1 (@mask_item R n) n.
Proof. unfold mask_item, value. pose proof (@quiet_behind R n "="). q. Qed.
Lemma quiet_more {R A} (p : parser R A) n : quiet 1 p n -> forall m, (m <= n)%nat -> quiet 0 (more m p) m.
Proof.
  intros Q m. induction m as [|m IH]; intros L; [intros k ts E; lia|]. cbn [more].
  apply quiet_predict; [|apply quiet_ret]. apply quiet_0. apply quiet_step; [apply quiet_tok|]. intros _.
  assert (quiet 0 (more m p) m) by (apply IH; lia). assert (quiet 0 p m) by (apply (quiet_weaken 1 0 p n); auto; lia). quiet0.
Qed.
Lemma quiet_items {R A} (p : parser R A) n : quiet 1 p n -> quiet 1 (items n p) n.
Proof.
  intros Q. unfold items. apply quiet_bind1; [exact Q|]. intros a. apply quiet_bind0; [apply (quiet_more p n); auto|].
  intros l. q.
Qed.
Lemma quiet_other {R} n : quiet 1 (@other R n) n.
Proof.
  unfold other, rule_group, table, database, service, pubsub.
  pose proof (@quiet_templ R n).
  assert (quiet 0 (many n (la "rule") (@rule R n)) n) by (apply (quiet_many _ _ n); [unfold rule; q|lia]).
  assert (quiet 0 (opt (la "using") (tok "using" ;; ident) : parser R (option string)) n) by (apply quiet_opt; q).
  assert (quiet 0 (many n la_table_field (@table_field R n)) n).
  { apply (quiet_many _ _ n); [|lia]. unfold table_field, sql_constraint. apply quiet_bind01; [apply quiet_flag|]. intros v.
    apply quiet_bind1; [apply quiet_inst|]. intros t. apply quiet_bind0; [q|]. intros x.
    apply quiet_bind0; [apply quiet_behind|]. intros. q. }
  assert (quiet 0 (opt (la "sql") (let%p e := sql_constraint n in tok ";" ;; pret e) : parser R (option pexpr)) n).
  { apply quiet_opt. unfold sql_constraint. apply quiet_bind0; [q|]. intros. q. }
  assert (D : quiet 1 (@database_field R n) n).
  { unfold database_field. apply quiet_bind1; [apply quiet_inst|]. intros t. q. }
  pose proof (quiet_0 _ _ D).
  assert (quiet 0 (many n la_type (@database_field R n)) n) by (apply (quiet_many _ _ n); [exact D|lia]).
  assert (quiet 0 (many n la_type (@method R n)) n) by (apply (quiet_many _ _ n); [unfold method; q|lia]).
  assert (quiet 0 (many n (la_in ["publish"; "subscribe"; "topic"]%string) (@message R n)) n).
  { apply (quiet_many _ _ n); [unfold message|lia]. apply quiet_bind01; [q|]. intros a. q. }
  q.
Qed.
Lemma quiet_directive {R} n : quiet 1 (@directive R n) n.
Proof.
  unfold directive, constant, subtype, enum, bitmask, instantiate_decl.
  pose proof (@quiet_structure R n). pose proof (@quiet_choice R n). pose proof (@quiet_union R n).
  pose proof (quiet_0 _ _ (@quiet_inst R n)). pose proof (quiet_0 _ _ (quiet_items _ n (@quiet_enum_item R n))).
  pose proof (quiet_0 _ _ (quiet_items _ n (@quiet_mask_item R n))). pose proof (@quiet_other R n). q.
Qed.
Lemma quiet_import_path {R} : forall m, quiet 0 (@import_path R m) m.
Proof.
  induction m as [|m IH]; [intros k ts E; lia|]. cbn [import_path]. apply quiet_predict; [|apply quiet_ret].
  apply quiet_0. apply quiet_step; [apply quiet_ident|]. intros. quiet0.
Qed.
Lemma quiet_import {R} n : quiet 1 (@import_decl R n) n.
Proof. unfold import_decl. pose proof (@quiet_import_path R n). q. Qed.
Lemma quiet_package {R} n : quiet 0 (@package R n) n.
Proof.
  unfold package. apply quiet_bind0; [apply quiet_opt; unfold version; q|]. intros v.
  apply quiet_bind0; [apply quiet_opt; unfold package_name; pose proof (@quiet_qualified R n); q|]. intros nm.
  apply quiet_bind0; [apply (quiet_many _ _ n); [apply quiet_import|lia]|]. intros imps.
  apply quiet_bind0; [apply (quiet_many _ _ n); [apply quiet_directive|lia]|]. intros. q.
Qed.
Theorem parse_total ts : parse ts <> Fuel.
Proof.
  unfold parse. assert (L : (List.length ts < S (List.length ts))%nat) by lia.
  revert L. generalize (S (List.length ts)). intros n L.
  apply (quiet_package n); [exact L|]. intros a rest _. unfold at_end. destruct rest; discriminate.
Qed.
