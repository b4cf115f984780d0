(** Printed bodies, run statement by statement, against the functions of M_Gen: writing. *)
From Coq Require Import ZArith List Bool String Lia.
From Verif Require Import M_Base M_Bits M_Var M_Prim M_Array S_Var M_Gen M_Expr M_Print M_Comp M_Code S_Code.
From Verif Require Import P_Base P_Same P_Code1.
Import ListNotations.
Open Scope string_scope.
Open Scope list_scope.
Open Scope Z_scope.

(** [y] does what [x] does, unless [x] panics or runs out of fuel. *)
Definition sim {A B} (R : A -> B -> Prop) (x : res A) (y : res B) : Prop :=
  match x with
  | Ok a => exists b, y = Ok b /\ R a b
  | Err e => y = Err e
  | Panic | NoFuel => True
  end.
Lemma sim_ok A B (R : A -> B -> Prop) a b : R a b -> sim R (Ok a) (Ok b).
Proof. intros H. exists b. split; [reflexivity|exact H]. Qed.
Lemma sim_bind A B A' B' (R : A -> B -> Prop) (Q : A' -> B' -> Prop) x y k k' :
  sim R x y -> (forall a b, R a b -> sim Q (k a) (k' b)) -> sim Q (bind x k) (bind y k').
Proof.
  intros H K. destruct x; cbn [bind sim] in *; try exact Logic.I.
  - destruct H as (b & -> & H). cbn [bind]. apply K, H.
  - subst y. reflexivity.
Qed.
Lemma sim_same A A' B' (Q : A' -> B' -> Prop) (x : res A) k k' :
  (forall a, x = Ok a -> sim Q (k a) (k' a)) -> sim Q (bind x k) (bind x k').
Proof. intros K. destruct x; cbn [bind sim]; try exact Logic.I; [apply K; reflexivity|reflexivity]. Qed.
Lemma sim_ble A A' B' (Q : A' -> B' -> Prop) (x y : res A) k k' : ble x y ->
  (forall a, y = Ok a -> sim Q (k a) (k' a)) -> sim Q (bind x k) (bind y k').
Proof. intros [-> |[-> | ->]] K; [exact Logic.I|exact Logic.I|apply sim_same, K]. Qed.
Lemma sim_get A A' B' (Q : A' -> B' -> Prop) i (l : list A) k y :
  (forall a, nth_error l i = Some a -> sim Q (k a) y) -> sim Q (bind (M_Gen.get i l) k) y.
Proof.
  intros K. unfold M_Gen.get. destruct (nth_error l i) as [a|] eqn:N; [|exact Logic.I]. apply (K a eq_refl).
Qed.
Lemma sim_panic A B (Q : A -> B -> Prop) y : sim Q Panic y.
Proof. exact Logic.I. Qed.
Lemma sim_weaken A B (Q Q' : A -> B -> Prop) x y : (forall a b, Q a b -> Q' a b) -> sim Q x y -> sim Q' x y.
Proof. intros W H. destruct x; cbn [sim] in *; try exact H. destruct H as (b & ? & H). exists b. split; [assumption|apply W, H]. Qed.
Lemma sim_right A B B' (R : A -> B -> Prop) (Q : A -> B' -> Prop) x y k :
  sim R x y -> (forall a b, R a b -> sim Q (Ok a) (k b)) -> sim Q x (bind y k).
Proof.
  intros H K. destruct x; cbn [sim] in *; try exact Logic.I.
  - destruct H as (b & -> & H). apply (K _ _ H).
  - subst y. reflexivity.
Qed.
Lemma sim_left A A' B (R : A -> B -> Prop) (Q : A' -> B -> Prop) x y k :
  sim R x y -> (forall a b, R a b -> sim Q (k a) (Ok b)) -> sim Q (bind x k) y.
Proof.
  intros H K. destruct x; cbn [bind sim] in *; try exact Logic.I.
  - destruct H as (b & -> & H). apply (K _ _ H).
  - exact H.
Qed.
Lemma sim_tail A B (Q : A -> B -> Prop) x k : (forall a, x = Ok a -> sim Q (Ok a) (k a)) -> sim Q x (bind x k).
Proof. intros K. destruct x; cbn [sim bind]; try exact Logic.I; [apply K|]; reflexivity. Qed.
Lemma bind_bind A B C (x : res A) (f : A -> res B) (g : B -> res C) : bind (bind x f) g = bind x (fun a => bind (f a) g).
Proof. destruct x; reflexivity. Qed.
(** From states to results. *)
Lemma sim_end A B C (R : A -> B -> Prop) (x : res A) y (k : B -> res C) (g : A -> C) :
  sim R x y -> (forall a b, R a b -> k b = Ok (g a)) -> ble (rmap g x) (bind y k).
Proof.
  intros H K. destruct x; cbn [sim rmap] in *.
  - destruct H as (b & -> & H). cbn [bind]. rewrite (K _ _ H). apply ble_refl.
  - subst y. apply ble_refl.
  - apply ble_panic.
  - apply ble_nofuel.
Qed.

(** ** Names *)
Lemma find_name_none m l : ~ In m (map sf_name l) -> forall k, find_name m l k = None.
Proof.
  induction l as [|f t IH]; intros H k; [reflexivity|]. cbn [find_name]. destruct (String.eqb_spec m (sf_name f)) as [->|N].
  - destruct H. left. reflexivity.
  - apply IH. intros H'. apply H. right. exact H'.
Qed.
Lemma find_name_at l : NoDup (map sf_name l) -> forall i f k, nth_error l i = Some f -> find_name (sf_name f) l k = Some ((k + i)%nat, f).
Proof.
  induction l as [|g t IH]; intros D i f k H; [destruct i; discriminate H|]. cbn [map] in D. inversion D as [|? ? N D']; subst.
  destruct i as [|i]; cbn [nth_error] in H; cbn [find_name].
  - injection H as ->. rewrite String.eqb_refl. rewrite Nat.add_0_r. reflexivity.
  - destruct (String.eqb_spec (sf_name f) (sf_name g)) as [E|_].
    + destruct N. rewrite <- E. apply in_map. eapply nth_error_In, H.
    + rewrite (IH D' i f (S k) H). do 2 f_equal. lia.
Qed.
Lemma nodup_app A (l m : list A) : NoDup (l ++ m) -> NoDup l /\ NoDup m /\ forall x, In x l -> ~ In x m.
Proof.
  induction l as [|a t IH]; intros H; [repeat split; [constructor|exact H|intros x []]|].
  cbn [app] in H. inversion H as [|? ? N H']; subst. destruct (IH H') as (A1 & A2 & A3). repeat split.
  - constructor; [|exact A1]. intros X. apply N, in_or_app. left. exact X.
  - exact A2.
  - intros x [->|X]; [|apply A3, X]. intros Y. apply N, in_or_app. right. exact Y.
Qed.
Lemma find_param e j p : NoDup (member_names e) -> nth_error (sdef_params e) j = Some p ->
  find_member e (sf_name p) = Some (true, j, p).
Proof.
  unfold member_names. rewrite map_app. intros D H. apply nodup_app in D. destruct D as (D & _ & _).
  unfold find_member. rewrite (find_name_at _ D _ _ 0%nat H). reflexivity.
Qed.
Lemma find_field e i f : NoDup (member_names e) -> nth_error (sdef_fields e) i = Some f ->
  find_member e (sf_name f) = Some (false, i, f).
Proof.
  unfold member_names. rewrite map_app. intros D H. apply nodup_app in D. destruct D as (_ & D & X).
  unfold find_member. rewrite find_name_none.
  - rewrite (find_name_at _ D _ _ 0%nat H). reflexivity.
  - intros Y. apply (X _ Y). apply in_map. eapply nth_error_In, H.
Qed.

(** ** Variables *)
Definition plain_vars (l : list (string * lvar)) : Prop := Forall (fun p => exists f, fst p = array_name f) l.
Lemma plain_none x l : (forall m, String.eqb x ("zs_array_" ++ m)%string = false) -> plain_vars l -> assoc l x = None.
Proof.
  intros X. induction 1 as [|[y v] t (f & F) H IH]; [reflexivity|]. cbn [fst] in F. subst y. cbn [assoc]. unfold array_name.
  rewrite X. exact IH.
Qed.
Lemma plain_index l : plain_vars l -> assoc l "param_index" = None.
Proof. apply plain_none. reflexivity. Qed.

Lemma leave_vars s0 s vs vars : s_vars s = vs ++ vars -> List.length vars = List.length (s_vars s0) -> leave s0 s = set_vars vars s.
Proof.
  intros H L. unfold leave. f_equal. rewrite H, app_length, <- L.
  replace (List.length vs + List.length vars - List.length vars)%nat with (List.length vs) by lia.
  rewrite skipn_app, skipn_all, Nat.sub_diag. reflexivity.
Qed.
Lemma leave_same s s' : s_vars s' = s_vars s -> leave s s' = s'.
Proof. intros H. rewrite (leave_vars s s' [] (s_vars s)); [|exact H|reflexivity]. rewrite <- H. destruct s'; reflexivity. Qed.
Lemma skipn_cons A j (l : list A) : match nth_error l j with
  | Some a => skipn j l = a :: skipn (S j) l
  | None => skipn j l = []
  end.
Proof.
  revert l. induction j as [|j IH]; intros [|a t]; try reflexivity. cbn [nth_error]. specialize (IH t).
  destruct (nth_error t j); exact IH.
Qed.

Section Sim.
Variables (E : env) (im : nat -> obj_impl) (I : interp) (defs : list sdef) (n : nat) (d : sdef).
Notation run := (M_Code.run E im I defs n d).
Notation exec := (M_Code.exec E im I defs n d).
Notation do_line := (M_Code.do_line E im I defs n d).
Notation at_spot := (M_Code.at_spot d).
Notation lowerf := (lower_field I defs n).

(** ** Running *)
Lemma run_app l m s : run (l ++ m) s = (do s <- run l s ; run m s).
Proof.
  revert s. induction l as [|a t IH]; intros s; [reflexivity|]. cbn [app M_Code.run]. destruct (exec a s); cbn [bind]; [apply IH|reflexivity|reflexivity|reflexivity].
Qed.
Lemma run_one a s : run [a] s = exec a s.
Proof. cbn [M_Code.run]. destruct (exec a s); reflexivity. Qed.
Lemma exec_do l s : exec (Do l) s = do_line l s.
Proof. reflexivity. Qed.
Definition block (b : list stmt) (s : state) : res state := do s' <- run b s ; Ok (leave s s').
Definition otherwise (e : option (list stmt)) (s : state) : res state := match e with Some l => block l s | None => Ok s end.
Lemma exec_if a b e s : exec (Block (LIf a) b e) s
  = (do c <- in_cond I n a 0 (self_ps s) (self_fs s) ; if c then block b s else otherwise e s).
Proof. reflexivity. Qed.
Lemma exec_open b e s : exec (Block LOpen b e) s = block b s.
Proof. reflexivity. Qed.
Lemma exec_some p b e s : exec (Block (LIfSome p) b e) s
  = (do v <- at_spot s p ;
     match v with
     | VSome x => do s' <- run b (bind_var "x" (VVal x) s) ; Ok (leave s s')
     | VNone => otherwise e s
     | _ => Panic
     end).
Proof. reflexivity. Qed.
Lemma exec_present b e s : exec (Block LIfPresent b e) s
  = (do c <- var_flag s "present" ; if c then block b s else otherwise e s).
Proof. reflexivity. Qed.
Lemma exec_for_index p b e s : exec (Block (LForIndex p) b e) s
  = (do v <- at_spot s p ; do l <- list_of v ; for_each (run b) (enumerate l 0) s).
Proof. reflexivity. Qed.
Lemma exec_for_in p b e s : exec (Block (LForIn p) b e) s
  = (do v <- at_spot s p ; do l <- list_of v ; for_each (run b) (map (fun x => [("element", VVal x)]) l) s).
Proof. reflexivity. Qed.
Lemma exec_for_range y b e s : exec (Block (LForRange y) b e) s
  = (do z <- var_num s y ; for_each (run b) (map (fun i => [("param_index", VNum i)]) (count (Z.to_nat z) 0)) s).
Proof. reflexivity. Qed.
Fixpoint pick (test : line -> bool) (l : list (line * list stmt)) (s : state) : res state :=
  match l with
  | [] => Panic
  | (a, b) :: t => if test a then block b s else pick test t s
  end.
Lemma pick_eq test l s : (fix pick (test : line -> bool) (l : list (line * list stmt)) {struct l} : res state :=
        match l with
        | [] => Panic
        | (a, b) :: t => if test a then do s' <- run b s ; Ok (leave s s') else pick test t
        end) test l = pick test l s.
Proof. induction l as [|[a b] t IH]; [reflexivity|]. cbn [pick]. rewrite IH. reflexivity. Qed.
Lemma exec_match sel arms s : exec (Cases (LMatch sel) arms) s
  = (do z <- in_sel I n sel 0 (self_ps s) (self_fs s) ; pick (takes I n z) arms s).
Proof.
  transitivity (do z <- in_sel I n sel 0 (self_ps s) (self_fs s) ;
    (fix pick (test : line -> bool) (l : list (line * list stmt)) {struct l} : res state :=
        match l with
        | [] => Panic
        | (a, b) :: t => if test a then do s' <- run b s ; Ok (leave s s') else pick test t
        end) (takes I n z) arms); [reflexivity|].
  destruct (in_sel _ _ _ _ _ _); cbn [bind]; [apply pick_eq|reflexivity|reflexivity|reflexivity].
Qed.
Lemma exec_match_union arms s : exec (Cases LMatchUnion arms) s
  = match s_self s with VObj z _ _ => pick (takes_variant d z) arms s | _ => Panic end.
Proof.
  transitivity (match s_self s with VObj z _ _ => 
    (fix pick (test : line -> bool) (l : list (line * list stmt)) {struct l} : res state :=
        match l with
        | [] => Panic
        | (a, b) :: t => if test a then do s' <- run b s ; Ok (leave s s') else pick test t
        end) (takes_variant d z) arms | _ => Panic end); [reflexivity|].
  destruct (s_self s); try reflexivity. apply pick_eq.
Qed.

Lemma do_lines l m s : run (map Do (l ++ m)) s = (do s <- run (map Do l) s ; run (map Do m) s).
Proof. rewrite map_app. apply run_app. Qed.

(** ** Arguments *)
Definition checked_types : Prop := forall e, In e defs -> printable defs e.
(** Arguments of members without [@index] are the same everywhere. *)
Definition steady_arg (a : sarg) : Prop := uses_index a = false -> forall pt idx ps fs,
  ble (in_arg I n true pt a idx ps fs) (in_arg I n false pt a 0 ps fs).
Definition steady : Prop := forall f, In f (sdef_fields d) -> Forall steady_arg (type_args (sf_ty f)).
(** Arguments do not return errors. *)
Definition calm : Prop := forall arr pt a idx ps fs e, in_arg I n arr pt a idx ps fs <> Err e.


Lemma checks_sim args j p k e v s idx arr ps fs :
  at_spot s p = Ok v -> nth_error defs k = Some e -> NoDup (member_names e) ->
  (j + List.length args = List.length (sdef_params e))%nat ->
  (forall q, In q (inits defs k j args) -> ble (in_arg I n arr (it_type q) (it_arg q) idx ps fs) (arg_value I n s q)) ->
  sim (fun _ s' => s' = s) (check_args (lower_args I defs n arr k j args) (skipn j (params_of v)) idx ps fs)
    (run (map Do (map (LAssertArg p k) (inits defs k j args))) s).
Proof.
  intros V K D. revert j. induction args as [|a t IH]; intros j L Q; [exists s; split; reflexivity|].
  cbn [lower_args check_args inits map M_Code.run]. pose proof (skipn_cons _ j (params_of v)) as SK.
  destruct (nth_error (params_of v) j) as [q|] eqn:N; [|rewrite SK; exact Logic.I]. rewrite SK.
  destruct v as [| | | | | | | |sel qs gs]; cbn [params_of] in N; try (destruct j; discriminate N).
  rewrite exec_do. cbn [M_Code.do_line]. unfold decl. rewrite K. cbn [bind]. rewrite V. cbn [bind it_name].
  destruct (nth_error (sdef_params e) j) as [pf|] eqn:PF.
  2:{ apply nth_error_None in PF. cbn [List.length] in L. lia. }
  unfold member_of. unfold M_Code.param_name. rewrite K, PF. rewrite (find_param e j pf D PF).
  unfold M_Gen.get at 1. cbn [params_of] in *. rewrite N. cbn [bind].
  specialize (Q (Init (M_Code.param_name defs k j) (param_type defs k j) a) (or_introl eq_refl)) as Q0.
  cbn [it_type it_arg] in Q0. unfold M_Code.param_name in Q0. rewrite K, PF in Q0.
  destruct Q0 as [-> |[-> | Q0]]; [exact Logic.I|exact Logic.I|].
  rewrite Q0. destruct (arg_value I n s _) as [x|er| |]; cbn [bind sim]; try exact Logic.I; [|reflexivity].
  destruct (rust_eq q x); [|exact Logic.I]. cbn [bind].
  apply IH; [cbn [List.length] in L; lia|]. intros q' Q'. apply Q. right. exact Q'.
Qed.

(** ** Arrays and clauses *)
Lemma packable_lower f : is_packable (lowerf f) = packable f.
Proof.
  unfold is_packable, packable, lower_field. cbn. destruct (sf_is_offset f); [reflexivity|].
  destruct (sf_array f); [reflexivity|]. cbn [option_map]. destruct (sf_ty f); reflexivity.
Qed.
(** The variable of an array field. *)
Definition arr_in (f : sfield) (arr : option (array value)) (ps fs : list value) (vars : list (string * lvar)) : Prop :=
  match arr, sf_array f with
  | None, None => True
  | Some a, Some sa =>
      assoc vars (array_name f) = Some (VArray a)
      /\ match sa_len sa with
         | Some e => exists z, rmap (wrap_u 64) (in_len I n e 0 ps fs) = Ok z /\ a_fixed a = Some z
         | None => a_fixed a = None
         end
  | _, _ => False
  end.
Lemma let_sim force f s sel ps fs : s_self s = VObj sel ps fs ->
  sim (fun arr s' => exists vs, plain_vars vs /\ s' = set_vars (vs ++ s_vars s) s /\ arr_in f arr ps fs (vs ++ s_vars s))
    (instantiate_array E im (lowerf f) force ps fs) (run (let_tree force f) s).
Proof.
  intros SE. unfold instantiate_array, let_tree, let_array. rewrite packable_lower. unfold lower_field. cbn [f_array f_ty].
  destruct (sf_array f) as [sa|] eqn:SA; cbn [option_map map].
  2:{ exists s. split; [reflexivity|]. exists []. split; [constructor|]. split; [destruct s; reflexivity|]. unfold arr_in. now rewrite SA. }
  rewrite run_one, exec_do. cbn [M_Code.do_line as_len as_packed]. unfold element_trait, bits_of_type, eval_len, self_ps, self_fs.
  rewrite SE. destruct (lower_type I defs n true (sf_ty f)) as [b|k args].
  - destruct (num_bits b ps fs) as [m| | |]; cbn [bind sim]; try exact Logic.I; [|reflexivity].
    destruct (sa_len sa) as [e|] eqn:SL; cbn [option_map].
    + destruct (in_len I n e 0 ps fs) as [z| | |] eqn:Z0; cbn [rmap bind sim]; try exact Logic.I; [|reflexivity].
      eexists. split; [reflexivity|]. exists [(array_name f, VArray (mkArr (delta_trait E (bty_ops E b m)) ((sa_packed sa || force) && packable f) (Some (wrap_u 64 z))))].
      split; [repeat constructor; exists f; reflexivity|]. split; [reflexivity|]. unfold arr_in. rewrite SA, SL. split.
      * cbn [app assoc]. rewrite String.eqb_refl. reflexivity.
      * exists (wrap_u 64 z). split; [now rewrite Z0|reflexivity].
    + cbn [bind sim]. eexists. split; [reflexivity|]. exists [(array_name f, VArray (mkArr (delta_trait E (bty_ops E b m)) ((sa_packed sa || force) && packable f) None))].
      split; [repeat constructor; exists f; reflexivity|]. split; [reflexivity|]. unfold arr_in. rewrite SA, SL. split; [|reflexivity].
      cbn [app assoc]. rewrite String.eqb_refl. reflexivity.
  - cbn [bind sim]. 
    destruct (sa_len sa) as [e|] eqn:SL; cbn [option_map].
    + destruct (in_len I n e 0 ps fs) as [z| | |] eqn:Z0; cbn [rmap bind sim]; try exact Logic.I; [|reflexivity].
      eexists. split; [reflexivity|]. exists [(array_name f, VArray (mkArr (object_trait (im k)) ((sa_packed sa || force) && packable f) (Some (wrap_u 64 z))))].
      split; [repeat constructor; exists f; reflexivity|]. split; [reflexivity|]. unfold arr_in. rewrite SA, SL. split.
      * cbn [app assoc]. rewrite String.eqb_refl. reflexivity.
      * exists (wrap_u 64 z). split; [now rewrite Z0|reflexivity].
    + cbn [bind sim]. eexists. split; [reflexivity|]. exists [(array_name f, VArray (mkArr (object_trait (im k)) ((sa_packed sa || force) && packable f) None))].
      split; [repeat constructor; exists f; reflexivity|]. split; [reflexivity|]. unfold arr_in. rewrite SA, SL. split; [|reflexivity].
      cbn [app assoc]. rewrite String.eqb_refl. reflexivity.
Qed.
Lemma block_sim A (Q : A -> state -> Prop) b s k : (forall a s', Q a s' -> s_vars s' = s_vars s) -> sim Q k (run b s) -> sim Q k (block b s).
Proof.
  intros V H. unfold block. eapply sim_right; [exact H|]. intros a s' R. rewrite (leave_same _ _ (V _ _ R)). apply sim_ok, R.
Qed.
Lemma clause_sim A (Q : A -> state -> Prop) f b s x k sel ps fs : s_self s = VObj sel ps fs -> Q x s ->
  (forall a s', Q a s' -> s_vars s' = s_vars s) -> sim Q k (run b s) ->
  sim Q (do c <- clause (lowerf f) ps fs ; if negb c then Ok x else k) (run (clause_tree f b) s).
Proof.
  intros SE X V H. unfold clause, lower_field, clause_tree. cbn [f_clause]. destruct (sf_clause f) as [a|]; cbn [option_map].
  - rewrite run_one, exec_if. unfold self_ps, self_fs. rewrite SE. apply sim_same. intros c _. destruct c; cbn [negb].
    + apply block_sim; assumption.
    + apply sim_ok, X.
  - exact H.
Qed.

(** ** Writing *)
Section Write.
Variables (sel : Z) (ps fs : list value) (rd : reader) (st en : Z) (rt : option Z).
Notation St vars c w := (State (VObj sel ps fs) vars c w rd st en rt).
Hypothesis (D : NoDup (member_names d)) (PR : checked_types) (SY : steady).

Lemma write_type_sim pk i t p v vars c w : (pk = true -> packable_type t = true) -> at_spot (St vars c w) p = Ok v ->
  sim (fun cw s' => s' = St vars (fst cw) (snd cw))
    (encode_type E im pk i (lower_type I defs n false t) ps fs v c w) (run (map Do (write_type pk i t p)) (St vars c w)).
Proof using.
  intros P V. unfold write_type. destruct t as [b|sg a|k args].
  - cbn [lower_type encode_type]. destruct pk.
    + cbn [packable_type] in P. rewrite (P eq_refl). replace (never_packed (SBuiltin b)) with false
        by (destruct b; try reflexivity; discriminate (P eq_refl)).
      cbn [andb negb map]. rewrite run_one, exec_do. cbn [M_Code.do_line scalar_of lower_type bind]. rewrite V. cbn [bind].
      apply sim_same. intros [w' c'] _. apply sim_ok. reflexivity.
    + cbn [andb map]. rewrite run_one, exec_do. cbn [M_Code.do_line scalar_of lower_type bind]. rewrite V. cbn [bind].
      apply sim_same. intros m _. apply sim_same. intros w' _. apply sim_ok. reflexivity.
  - cbn [lower_type encode_type bty_packable never_packed negb]. destruct pk; cbn [andb map]; rewrite run_one, exec_do;
      cbn [M_Code.do_line]; unfold scalar_of; cbn [lower_type bind]; rewrite V; cbn [bind].
    + apply sim_same. intros [w' c'] _. apply sim_ok. reflexivity.
    + apply sim_same. intros m _. apply sim_same. intros w' _. apply sim_ok. reflexivity.
  - cbn [lower_type encode_type]. destruct pk; cbn [map]; rewrite run_one, exec_do; cbn [M_Code.do_line]; rewrite V; cbn [bind].
    + apply sim_same. intros [w' c'] _. apply sim_ok. reflexivity.
    + apply sim_same. intros [c' w'] _. apply sim_ok. reflexivity.
Qed.

Lemma arg_out s q : assoc (s_vars s) "param_index" = None ->
  arg_value I n s q = in_arg I n false (it_type q) (it_arg q) 0 (self_ps s) (self_fs s).
Proof using. intros H. unfold arg_value. rewrite H. reflexivity. Qed.
Lemma inits_arg k j args q : In q (inits defs k j args) -> In (it_arg q) args.
Proof using.
  revert j. induction args as [|a t IH]; intros j H; [exact H|]. destruct H as [<-|H]; [left; reflexivity|right; apply (IH _ H)].
Qed.
Lemma existsb_none A (g : A -> bool) l : existsb g l = false -> forall a, In a l -> g a = false.
Proof using.
  intros H a A0. destruct (g a) eqn:G; [|reflexivity]. rewrite <- H. symmetry. apply existsb_exists. exists a. split; assumption.
Qed.

(** The loop over the elements. *)
Lemma check_items_index k args e vars c w : nth_error defs k = Some e -> NoDup (member_names e) ->
  List.length args = List.length (sdef_params e) ->
  forall l idx,
  sim (fun _ s' => s' = St vars c w) (check_items (M_Gen.TRef k (lower_args I defs n true k 0 args)) idx ps fs l)
    (for_each (run (map Do (map (LAssertArg (OnVar "element") k) (inits defs k 0 args)))) (enumerate l idx) (St vars c w)).
Proof using.
  intros K D' L. induction l as [|v l IH]; intros idx; [apply sim_ok; reflexivity|].
  cbn [check_items check_item enumerate for_each]. cbn [set_vars s_vars s_self s_ctx s_out s_in s_start s_end s_ret].
  eapply sim_bind.
  - apply (checks_sim args 0 (OnVar "element") k e v (set_vars ([("element", VVal v); ("param_index", VNum idx)] ++ vars) (St vars c w)) idx true ps fs); try assumption.
    + reflexivity.
    + intros q _. apply ble_refl.
  - intros _ s' ->. rewrite (leave_vars _ _ [("element", VVal v); ("param_index", VNum idx)] vars); [|reflexivity|reflexivity].
    apply IH.
Qed.
Lemma check_items_in k args e vars c w : nth_error defs k = Some e -> NoDup (member_names e) ->
  List.length args = List.length (sdef_params e) -> existsb uses_index args = false -> Forall steady_arg args -> assoc vars "param_index" = None ->
  forall l idx,
  sim (fun _ s' => s' = St vars c w) (check_items (M_Gen.TRef k (lower_args I defs n true k 0 args)) idx ps fs l)
    (for_each (run (map Do (map (LAssertArg (OnVar "element") k) (inits defs k 0 args)))) (map (fun x => [("element", VVal x)]) l) (St vars c w)).
Proof using.
  intros K D' L U SA VX. induction l as [|v l IH]; intros idx; [apply sim_ok; reflexivity|].
  cbn [check_items check_item map for_each]. cbn [set_vars s_vars s_self s_ctx s_out s_in s_start s_end s_ret].
  eapply sim_bind.
  - apply (checks_sim args 0 (OnVar "element") k e v (set_vars ([("element", VVal v)] ++ vars) (St vars c w)) idx true ps fs); try assumption.
    + reflexivity.
    + intros q Q. rewrite arg_out; [|exact VX]. apply (proj1 (Forall_forall _ _) SA _ (inits_arg _ _ _ _ Q)). apply (existsb_none _ _ _ U). apply (inits_arg _ _ _ _ Q).
  - intros _ s' ->. rewrite (leave_vars _ _ [("element", VVal v)] vars); [|reflexivity|reflexivity].
    apply IH.
Qed.

Lemma args_of f a t k : args_fit defs f -> sf_ty f = SRef k (a :: t) ->
  exists e, nth_error defs k = Some e /\ NoDup (member_names e) /\ List.length (a :: t) = List.length (sdef_params e).
Proof using PR.
  intros A T. unfold args_fit in A. rewrite T in A. destruct A as (e & K & L). exists e. repeat split; try assumption.
  apply (PR e). eapply nth_error_In, K.
Qed.
Lemma check_items_none t l : (match t with M_Gen.TRef _ (_ :: _) => False | _ => True end) ->
  forall idx, check_items t idx ps fs l = Ok tt.
Proof using.
  intros T. induction l as [|v l IH]; intros idx; [reflexivity|]. cbn [check_items].
  replace (check_item t idx ps fs v) with (Ok tt : res unit) by (destruct t as [|? [|]]; [reflexivity|reflexivity|destruct T]).
  apply IH.
Qed.
Lemma checks_array_sim f p l vars c w sa : In f (sdef_fields d) -> args_fit defs f -> at_spot (St vars c w) p = Ok (VArr l) -> assoc vars "param_index" = None ->
  sf_array f = Some sa ->
  sim (fun _ s' => s' = St vars c w) (check_items (lower_type I defs n true (sf_ty f)) 0 ps fs l)
    (run (checks_tree defs f p) (St vars c w)).
Proof using PR SY.
  intros FI A V VX SA. unfold checks_tree. rewrite SA. pose proof (SY f FI) as SF.
  destruct (sf_ty f) as [b|sg a|k args] eqn:T; cbn [type_args lower_type].
  - rewrite check_items_none; [|exact Logic.I]. apply sim_ok. reflexivity.
  - rewrite check_items_none; [|exact Logic.I]. apply sim_ok. reflexivity.
  - destruct args as [|a t].
    + rewrite check_items_none; [|exact Logic.I]. apply sim_ok. reflexivity.
    + destruct (args_of f a t k A T) as (e & K & DE & L). cbn [type_number]. rewrite run_one.
      destruct (existsb uses_index (a :: t)) eqn:U.
      * rewrite exec_for_index, V. cbn [bind list_of]. apply (check_items_index k (a :: t) e); assumption.
      * rewrite exec_for_in, V. cbn [bind list_of]. apply (check_items_in k (a :: t) e); assumption.
Qed.
Lemma checks_item_sim f p v vars c w : args_fit defs f -> at_spot (St vars c w) p = Ok v -> assoc vars "param_index" = None ->
  sf_array f = None ->
  sim (fun _ s' => s' = St vars c w) (check_item (lower_type I defs n false (sf_ty f)) 0 ps fs v)
    (run (checks_tree defs f p) (St vars c w)).
Proof using PR.
  intros A V VX SA. unfold checks_tree. rewrite SA.
  destruct (sf_ty f) as [b|sg a|k args] eqn:T; cbn [type_args lower_type check_item].
  - apply sim_ok. reflexivity.
  - apply sim_ok. reflexivity.
  - destruct args as [|a t]; [apply sim_ok; reflexivity|].
    destruct (args_of f a t k A T) as (e & K & DE & L). cbn [type_number].
    apply (checks_sim (a :: t) 0 p k e v (St vars c w) 0 false ps fs); try assumption.
    intros q _. rewrite arg_out; [|exact VX]. apply ble_refl.
Qed.

Lemma write_payload_sim pk i f p v arr vars c w : In f (sdef_fields d) -> args_fit defs f -> at_spot (St vars c w) p = Ok v ->
  assoc vars "param_index" = None -> arr_in f arr ps fs vars ->
  sim (fun cw s' => s' = St vars (fst cw) (snd cw)) (encode_payload E im pk arr i (lowerf f) ps fs v c w)
    (run (write_payload defs pk i f p) (St vars c w)).
Proof using PR SY.
  intros FI A V VX AR. unfold write_payload, encode_payload. rewrite run_app. unfold arr_in in AR. rewrite packable_lower.
  unfold lower_field. cbn [f_ty offs_of f_offset].
  destruct arr as [a|], (sf_array f) as [sa|] eqn:SA; try contradiction.
  - destruct AR as [AV AL]. destruct v as [| | | | | |  | l|]; try exact Logic.I.
    eapply sim_bind; [apply (checks_array_sim f p l vars c w sa FI A V VX SA)|]. intros _ s' ->.
    assert (forall s0 k w0, w0 = w -> s0 = St vars c w ->
       k = (fun w => Ok (c, w)) ->
       sim (fun cw s' => s' = St vars (fst cw) (snd cw))
         (do w <- array_write E a (match sf_offset f with IndexOffset => true | _ => false end) l w0 ; k w)
         (do_line (LArrayWrite (array_name f) p (by_index f)) s0)) as LAST.
    { intros s0 k w0 -> -> ->. cbn [M_Code.do_line]. unfold var_array. cbn [s_vars]. rewrite AV. cbn [bind]. rewrite V. cbn [bind list_of].
      unfold by_index. cbn [s_out]. apply sim_same. intros w' _. apply sim_ok. reflexivity. }
    destruct (sa_len sa) as [e|].
    + destruct AL as (z & EZ & FZ). rewrite FZ. cbn [app map M_Code.run]. rewrite exec_do. cbn [M_Code.do_line]. rewrite V. cbn [bind list_of].
      unfold eval_len, self_ps, self_fs. cbn [s_self]. rewrite EZ. cbn [bind]. destruct (zlen l =? z); [|exact Logic.I]. cbn [bind].
      rewrite exec_do. match goal with |- sim _ _ (bind ?x _) => replace (bind x (fun s => Ok s)) with x by (destruct x; reflexivity) end.
      apply LAST; reflexivity.
    + rewrite AL. cbn [app map]. rewrite run_one, exec_do. cbn [bind]. apply LAST; reflexivity.
  - eapply sim_bind; [apply (checks_item_sim f p v vars c w A V VX SA)|]. intros _ s' ->.
    apply write_type_sim; [|exact V]. intros H. apply andb_prop in H. destruct H as [_ H]. unfold packable in H. rewrite SA in H.
    destruct (sf_is_offset f); [discriminate H|exact H].
Qed.

Lemma write_pre_sim f vars c w : sim (fun w' s' => s' = St vars c w') (field_align_writer (lowerf f) w) (run (map Do (write_pre f)) (St vars c w)).
Proof using.
  unfold field_align_writer, lower_field, write_pre, by_offset. cbn [f_align f_offset]. rewrite do_lines.
  eapply sim_bind with (R := fun w' s' => s' = St vars c w').
  - destruct (sf_align f =? 0); [apply sim_ok; reflexivity|]. cbn [map]. rewrite run_one, exec_do. cbn [M_Code.do_line s_out].
    apply sim_tail. intros w' _. apply sim_ok. reflexivity.
  - intros w' s' ->. destruct (sf_offset f); [apply sim_ok; reflexivity| |apply sim_ok; reflexivity].
    cbn [map]. rewrite run_one, exec_do. cbn [M_Code.do_line s_out].
    apply sim_tail. intros w'' _. apply sim_ok. reflexivity.
Qed.

Lemma spot_field i f s v : nth_error (sdef_fields d) i = Some f -> s_self s = VObj sel ps fs -> nth_error fs i = Some v ->
  at_spot s (OnMember (sf_name f)) = Ok v.
Proof using D.
  intros F SE V. cbn [M_Code.at_spot]. rewrite SE. unfold member_of. rewrite (find_field d i f D F). unfold M_Gen.get. now rewrite V.
Qed.

Lemma write_field_sim pk force i f vars c w : nth_error (sdef_fields d) i = Some f -> args_fit defs f -> plain_vars vars ->
  sim (fun cw s' => exists vs, plain_vars vs /\ s' = St (vs ++ vars) (fst cw) (snd cw))
    (encode_field E im pk force i (lowerf f) ps fs c w)
    (run (let_tree force f ++ write_tree defs pk i f) (St vars c w)).
Proof using D PR SY.
  intros F A PV. pose proof (nth_error_In _ _ F) as FI. unfold encode_field. apply sim_get. intros v NV. rewrite run_app.
  eapply sim_bind; [apply (let_sim force f (St vars c w) sel ps fs eq_refl)|].
  cbn [s_vars]. intros arr s' (vs & PVS & -> & AR). change (set_vars (vs ++ vars) (St vars c w)) with (St (vs ++ vars) c w).
  assert (plain_vars (vs ++ vars)) as PA by (apply Forall_app; split; assumption).
  eapply sim_weaken with (Q := fun cw s' => s' = St (vs ++ vars) (fst cw) (snd cw)).
  { intros cw s' ->. exists vs. split; [exact PVS|reflexivity]. }
  apply (clause_sim _ _ _ _ _ _ _ sel ps fs); [reflexivity|reflexivity|intros a s' ->; reflexivity|].
  rewrite run_app. eapply sim_bind; [apply write_pre_sim|]. intros w' s' ->.
  replace (f_optional (lowerf f)) with (sf_optional f) by reflexivity.
  destruct (sf_optional f).
  - rewrite run_one, exec_some. rewrite (spot_field i f (St (vs ++ vars) c w') v F eq_refl NV). cbn [bind].
    destruct v as [| | | | | |x| |]; try exact Logic.I.
    + cbn [otherwise]. unfold block. rewrite run_one, exec_do. cbn [M_Code.do_line s_out].
      eapply sim_right with (R := fun cw s' => s' = St (vs ++ vars) (fst cw) (snd cw)).
      * apply sim_same. intros w'' _. apply sim_ok. reflexivity.
      * intros cw s' ->. rewrite leave_same by reflexivity. apply sim_ok. reflexivity.
    + cbn [M_Code.run]. rewrite exec_do. cbn [M_Code.do_line].
      change (bind_var "x" (VVal x) (St (vs ++ vars) c w')) with (St ([("x", VVal x)] ++ vs ++ vars) c w'). cbn [s_out].
      eapply sim_right with (R := fun cw s' => s' = St ([("x", VVal x)] ++ vs ++ vars) (fst cw) (snd cw)).
      * rewrite bind_bind. apply sim_same. intros w'' _. cbn [bind]. apply write_payload_sim; [exact FI|exact A|reflexivity| |].
        -- cbn [app assoc]. cbn [String.eqb]. apply plain_index, PA.
        -- unfold arr_in in *. destruct arr, (sf_array f); try exact AR.
      * intros cw s' ->. rewrite (leave_vars _ _ [("x", VVal x)] (vs ++ vars)); [|reflexivity|reflexivity]. apply sim_ok. reflexivity.
  - apply write_payload_sim; [exact FI|exact A|apply (spot_field i f (St (vs ++ vars) c w') v F eq_refl NV)|apply plain_index, PA|exact AR].
Qed.
End Write.
End Sim.
