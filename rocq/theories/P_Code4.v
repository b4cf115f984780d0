(** Printed bodies, run statement by statement, against the functions of M_Gen: reading. *)
From Coq Require Import ZArith List Bool String Lia.
From Verif Require Import M_Base M_Bits M_Var M_Prim M_Array S_Var M_Gen M_Expr M_Print M_Comp M_Code S_Gen S_Code.
From Verif Require Import P_Base P_Same P_Code1 P_Code2.
Import ListNotations.
Open Scope string_scope.
Open Scope list_scope.
Open Scope Z_scope.

(** ** Lists *)
Lemma upd_upd A i (x y : A) l : upd i x (upd i y l) = upd i x l.
Proof. revert i. induction l as [|a t IH]; intros [|i]; cbn [upd]; try reflexivity. now rewrite IH. Qed.
Lemma upd_self A i (x : A) l : nth_error l i = Some x -> upd i x l = l.
Proof. revert i. induction l as [|a t IH]; intros [|i] H; cbn [upd nth_error] in *; try discriminate H; [now injection H as ->|now rewrite IH]. Qed.
Lemma upd_at A i (x y : A) l : nth_error l i = Some y -> nth_error (upd i x l) i = Some x.
Proof. revert i. induction l as [|a t IH]; intros [|i] H; cbn [upd nth_error] in *; try discriminate H; [reflexivity|apply IH, H]. Qed.
Lemma upd_len A i (x : A) l : List.length (upd i x l) = List.length l.
Proof. revert i. induction l as [|a t IH]; intros [|i]; cbn [upd List.length]; try reflexivity. now rewrite IH. Qed.
Lemma upd_first A i (x : A) l : firstn i (upd i x l) = firstn i l.
Proof. revert i. induction l as [|a t IH]; intros [|i]; cbn [upd firstn]; try reflexivity. now rewrite IH. Qed.
Lemma upd_mid A (p : list A) x y t : upd (List.length p) x (p ++ y :: t) = p ++ x :: t.
Proof. induction p as [|a p IH]; cbn; [reflexivity|now rewrite IH]. Qed.
Lemma local_upd A i (e : M_Gen.expr A) idx ps x fs : local i e -> e idx ps (upd i x fs) = e idx ps fs.
Proof. intros L. apply L; [apply upd_len|apply upd_first]. Qed.
Lemma put_app x v (l m : list (string * lvar)) u : assoc l x = None -> put x v (l ++ (x, u) :: m) = Some (l ++ (x, v) :: m).
Proof.
  induction l as [|[y w] t IH]; intros H; cbn [app put assoc] in *; [now rewrite String.eqb_refl|].
  destruct (String.eqb x y); [discriminate H|]. now rewrite IH.
Qed.
Lemma assoc_app {A} x (l m : list (string * A)) : assoc (l ++ m) x = match assoc l x with Some v => Some v | None => assoc m x end.
Proof. induction l as [|[y w] t IH]; [reflexivity|]. cbn [app assoc]. destruct (String.eqb x y); [reflexivity|apply IH]. Qed.

Lemma forall2_len A B (R : A -> B -> Prop) l m : Forall2 R l m -> List.length l = List.length m.
Proof. induction 1; cbn [List.length]; congruence. Qed.

(** ** Names of local variables *)
Lemma eqb_length a b : String.length a <> String.length b -> String.eqb a b = false.
Proof. intros H. apply String.eqb_neq. intros ->. now apply H. Qed.
Lemma length_append a b : String.length (a ++ b)%string = (String.length a + String.length b)%nat.
Proof. induction a as [|c a IH]; [reflexivity|]. cbn [String.append String.length]. now rewrite IH. Qed.
Lemma array_not_length f : String.eqb (array_name f) (length_name f) = false.
Proof. apply eqb_length. unfold array_name, length_name. rewrite !length_append. cbn [String.length]. lia. Qed.
Lemma length_not_packing f : String.eqb (length_name f) (packing_name f) = false.
Proof. apply eqb_length. unfold packing_name, array_name, length_name. rewrite !length_append. cbn [String.length]. lia. Qed.
Lemma array_not_packing f : String.eqb (array_name f) (packing_name f) = false.
Proof. apply eqb_length. unfold packing_name, array_name. rewrite !length_append. cbn [String.length]. lia. Qed.
Lemma optional_not_length f : String.eqb "optional_value" (length_name f) = false.
Proof.
  unfold length_name. destruct (sf_name f) as [|a [|b m]].
  - reflexivity.
  - cbn [String.append]. apply String.eqb_neq. intros H. discriminate H.
  - apply eqb_length. cbn [String.append String.length]. rewrite length_append. cbn [String.length]. lia.
Qed.
Lemma packing_not_length f : String.eqb (packing_name f) (length_name f) = false.
Proof. rewrite String.eqb_sym. apply length_not_packing. Qed.

(** ** The two loops over elements, as one *)
Section Loop.
Variables (a : array value) (off : bool) (mk : Z -> res value).
Fixpoint rloop (k : nat) (c : ctxnode) (i : Z) (r : reader) : res (list value * ctxnode * reader) :=
  match k with
  | O => Ok ([], c, r)
  | S k =>
      do item <- mk i ;
      do (vk, r) <- read_one_element a off c item r ;
      let (v, c) := (vk : value * ctxnode) in
      do (ln, r) <- rloop k c (i + 1) r ;
      let (l, c) := (ln : list value * ctxnode) in Ok (v :: l, c, r)
  end.
Lemma rloop_packed : a_packed a = true -> forall k c i r, read_packed_all (a_trait a) off mk c k i r = rloop k c i r.
Proof.
  intros H. induction k as [|k IH]; intros c i r; [reflexivity|]. cbn [read_packed_all rloop]. unfold read_one_element. rewrite H.
  destruct (mk i) as [v| | |]; cbn [bind]; try reflexivity. destruct (align_elem_reader off r) as [r'| | |]; cbn [bind]; try reflexivity.
  destruct (at_read_packed (a_trait a) c v r') as [[[x c'] r'']| | |]; cbn [bind]; try reflexivity. now rewrite IH.
Qed.
Lemma rloop_plain : a_packed a = false -> forall k c i r, read_all (a_trait a) off mk k i r
  = (do (ln, r) <- rloop k c i r ; let (l, _) := (ln : list value * ctxnode) in Ok (l, r)).
Proof.
  intros H. induction k as [|k IH]; intros c i r; [reflexivity|]. cbn [read_all rloop]. unfold read_one_element. rewrite H.
  destruct (mk i) as [v| | |]; cbn [bind]; try reflexivity. destruct (align_elem_reader off r) as [r'| | |]; cbn [bind]; try reflexivity.
  destruct (at_read (a_trait a) v r') as [[x r'']| | |]; cbn [bind]; try reflexivity. rewrite (IH c).
  destruct (rloop k c (i + 1) r'') as [[[l c'] r3]| | |]; reflexivity.
Qed.
End Loop.

(** ** Parameters of an object, some of them set *)
Fixpoint mixed (g : sarg -> bool) (args : list sarg) (qs ps : list value) : list value :=
  match args, qs, ps with
  | a :: args, q :: qs, p :: ps => (if g a then q else p) :: mixed g args qs ps
  | _, _, _ => ps
  end.
Lemma mixed_all g args : (forall a, In a args -> g a = true) -> forall qs ps, List.length qs = List.length args -> List.length ps = List.length args ->
  mixed g args qs ps = qs.
Proof.
  induction args as [|a t IH]; intros G [|q qs] [|p ps] L M; try discriminate; [reflexivity|]. cbn [mixed]. rewrite (G a) by (left; reflexivity).
  rewrite IH; [reflexivity|intros b B; apply G; right; exact B|now injection L|now injection M].
Qed.
Lemma mixed_both g args : forall qs ps, List.length qs = List.length args -> List.length ps = List.length args ->
  mixed g args qs (mixed (fun a => negb (g a)) args qs ps) = qs.
Proof.
  induction args as [|a t IH]; intros [|q qs] [|p ps] L M; try discriminate; [reflexivity|]. cbn [mixed].
  rewrite IH; [|now injection L|now injection M]. destruct (g a); reflexivity.
Qed.
Lemma mixed_length g args : forall qs ps, List.length (mixed g args qs ps) = List.length ps.
Proof. induction args as [|a t IH]; intros [|q qs] [|p ps]; try reflexivity. cbn [mixed List.length]. now rewrite IH. Qed.

Section Sim.
Variables (E : env) (im : nat -> obj_impl) (I : interp) (defs : list sdef) (n : nat) (d : sdef).
Notation run := (M_Code.run E im I defs n d).
Notation exec := (M_Code.exec E im I defs n d).
Notation do_line := (M_Code.do_line E im I defs n d).
Notation at_spot := (M_Code.at_spot d).
Notation lowerf := (lower_field I defs n).

(** Default values of the types, as far as parameters are concerned. *)
Definition defaults_fit : Prop :=
  (forall k e v, nth_error defs k = Some e -> sdef_params e <> [] -> oi_default (im k) = Ok v ->
    exists ps fs, v = VObj 0 ps fs /\ List.length ps = List.length (sdef_params e) /\ List.length fs = List.length (sdef_fields e))
  /\ forall k e, oi_default (im k) <> Err e.

(** ** Literals *)
Definition named (k j : nat) (args : list sarg) (qs : list value) (g : sarg -> bool) : list (string * value) :=
  map (fun qx => (it_name (fst qx), snd qx)) (filter (fun qx => g (it_arg (fst qx))) (combine (inits defs k j args) qs)).
Lemma set_members_mixed k e g args : nth_error defs k = Some e -> NoDup (member_names e) ->
  forall qs pre ps s fs, List.length qs = List.length args -> List.length ps = List.length args ->
  (List.length pre + List.length args = List.length (sdef_params e))%nat ->
  set_members e (named k (List.length pre) args qs g) (VObj s (pre ++ ps) fs) = Ok (VObj s (pre ++ mixed g args qs ps) fs).
Proof.
  intros K D. unfold named. induction args as [|a t IH]; intros [|q qs] pre [|p ps] s fs L M N; try discriminate; [reflexivity|].
  cbn [List.length] in *. cbn [inits combine filter map mixed]. cbn [fst snd it_arg it_name].
  destruct (nth_error (sdef_params e) (List.length pre)) as [pf|] eqn:PF; [|apply nth_error_None in PF; lia].
  specialize (IH qs (pre ++ [if g a then q else p]) ps s fs ltac:(lia) ltac:(lia) ltac:(rewrite app_length; cbn [List.length]; lia)).
  rewrite app_length, <- !app_assoc in IH. cbn [List.length app] in IH. rewrite Nat.add_1_r in IH.
  destruct (g a).
  - cbn [map fst snd it_name set_members]. unfold set_member at 1. unfold M_Code.param_name. rewrite K, PF, (find_param e _ pf D PF). cbn [bind].
    rewrite upd_mid. exact IH.
  - exact IH.
Qed.
Lemma values_of_filter s (g : sarg -> bool) l qs : Forall2 (fun q x => arg_value I n s q = Ok x) l qs ->
  values_of I n s (filter (fun q => g (it_arg q)) l)
  = Ok (map (fun qx => (it_name (fst qx), snd qx)) (filter (fun qx => g (it_arg (fst qx))) (combine l qs))).
Proof.
  induction 1 as [|q x l qs H _ IH]; [reflexivity|]. cbn [filter combine]. cbn [fst]. destruct (g (it_arg q)); [|exact IH].
  cbn [values_of map fst snd]. rewrite H. cbn [bind]. rewrite IH. reflexivity.
Qed.
Lemma args_values arr idx ps fs s k args : calm I n ->
  (forall q, In (it_arg q) args -> ble (in_arg I n arr (it_type q) (it_arg q) idx ps fs) (arg_value I n s q)) ->
  forall j, match eval_args (lower_args I defs n arr k j args) idx ps fs with
  | Ok qs => Forall2 (fun q x => arg_value I n s q = Ok x) (inits defs k j args) qs
  | Err _ => False
  | _ => True
  end.
Proof.
  intros C Q. induction args as [|a t IH]; intros j; [constructor|]. cbn [lower_args eval_args inits].
  specialize (Q (Init (M_Code.param_name defs k j) (param_type defs k j) a)) as Q0. cbn [it_type it_arg] in Q0. specialize (Q0 (or_introl eq_refl)).
  destruct (in_arg I n arr (param_type defs k j) a idx ps fs) as [x|er| |] eqn:A0; cbn [bind]; try exact Logic.I; [|destruct (C _ _ _ _ _ _ _ A0)].
  specialize (IH (fun q H => Q q (or_intror H)) (S j)).
  destruct (eval_args (lower_args I defs n arr k (S j) t) idx ps fs) as [qs| | |]; cbn [bind]; try exact Logic.I; [|exact IH].
  constructor; [|exact IH]. destruct Q0 as [Q0|[Q0|Q0]]; [discriminate Q0|discriminate Q0|symmetry; exact Q0].
Qed.
Lemma inits_length k j args : List.length (inits defs k j args) = List.length args.
Proof. revert j. induction args as [|a t IH]; intros j; [reflexivity|]. cbn [inits List.length]. now rewrite IH. Qed.
Lemma inits_names k e args : nth_error defs k = Some e -> forall j, (j + List.length args = List.length (sdef_params e))%nat ->
  map it_name (inits defs k j args) = map sf_name (skipn j (sdef_params e)).
Proof.
  intros K. induction args as [|a t IH]; intros j L; cbn [List.length] in L.
  - cbn [inits map]. rewrite skipn_all2 by lia. reflexivity.
  - cbn [inits map it_name]. rewrite IH by lia. pose proof (skipn_cons _ j (sdef_params e)) as SK. unfold M_Code.param_name. rewrite K.
    destruct (nth_error (sdef_params e) j) eqn:PF; [rewrite SK; reflexivity|]. apply nth_error_None in PF. lia.
Qed.
Lemma filter_all A (g : A -> bool) l : (forall a, In a l -> g a = true) -> filter g l = l.
Proof. induction l as [|a t IH]; intros H; [reflexivity|]. cbn [filter]. rewrite (H a) by (left; reflexivity). f_equal. apply IH. intros b B. apply H. right. exact B. Qed.
Lemma same_names_refl l : same_names l l = true.
Proof. induction l as [|a t IH]; [reflexivity|]. cbn [same_names]. now rewrite String.eqb_refl. Qed.

(** The literal of a type without data fields. *)
Lemma literal_rest s k e g args qs : nth_error defs k = Some e -> NoDup (member_names e) -> defaults_fit -> args <> [] ->
  List.length args = List.length (sdef_params e) -> Forall2 (fun q x => arg_value I n s q = Ok x) (inits defs k 0 args) qs ->
  sim (fun v v' => exists ps0 fs0, v = VObj 0 ps0 fs0 /\ List.length ps0 = List.length args /\ v' = VObj 0 (mixed g args qs ps0) fs0)
    (oi_default (im k)) (literal im I defs n s k (filter (fun q => g (it_arg q)) (inits defs k 0 args)) true).
Proof.
  intros K D DF NE L Q. unfold literal, decl. rewrite K. cbn [bind]. rewrite (values_of_filter s g _ _ Q). cbn [bind].
  apply sim_tail. intros v V. destruct (proj1 DF k e v K) as (ps0 & fs0 & -> & PL & _).
  { intros X. rewrite X in L. destruct args; [now apply NE|discriminate L]. } { exact V. }
  pose proof (forall2_len _ _ _ _ _ Q) as LQ. rewrite inits_length in LQ.
  pose proof (set_members_mixed k e g args K D qs [] ps0 0 fs0) as SM. cbn [List.length app] in SM. unfold named in SM.
  rewrite SM; [|lia|lia|lia]. apply sim_ok. exists ps0, fs0. repeat split; lia.
Qed.

Section Read.
Variables (sel : Z) (ps fs : list value) (wr : writer) (st en : Z) (rt : option Z).
Variables (i : nat) (f : sfield) (old : value) (opt : bool) (bv : list (string * lvar)) (arr : option (array value)).
Hypothesis (D : NoDup (member_names d)) (PR : checked_types defs) (CA : calm I n) (DF : defaults_fit).
Hypothesis (F : nth_error (sdef_fields d) i = Some f) (AF : args_fit defs f) (OLD : nth_error fs i = Some old).
Hypothesis (FO : field_ok i (lowerf f)).
Hypothesis (BX : assoc bv "param_index" = None) (AR : arr_in I n f arr ps fs bv).

(** What is read goes to the variable of an optional field, or to the member. *)
Definition target_spot : spot := if opt then OnVar "optional_value" else OnMember (sf_name f).
Definition T (iv : list (string * lvar)) (x : value) (c : ctxnode) (r : reader) : state :=
  if opt then State (VObj sel ps fs) (iv ++ ("optional_value", VVal x) :: bv) c wr r st en rt
  else State (VObj sel ps (upd i x fs)) (iv ++ bv) c wr r st en rt.
Definition free (iv : list (string * lvar)) : Prop := assoc iv "optional_value" = None.

Lemma T_spot iv x c r : free iv -> at_spot (T iv x c r) target_spot = Ok x.
Proof using D F OLD.
  intros H. unfold T, target_spot. destruct opt; cbn [M_Code.at_spot].
  - unfold var_value. cbn [s_vars]. rewrite assoc_app, H. cbn [assoc]. reflexivity.
  - unfold member_of. cbn [s_self]. rewrite (find_field d i f D F). unfold M_Gen.get. rewrite (upd_at _ i x old fs OLD). reflexivity.
Qed.
Lemma T_set iv x y c r : free iv -> set_spot d (T iv x c r) target_spot y = Ok (T iv y c r).
Proof using D F.
  intros H. unfold T, target_spot. destruct opt; cbn [set_spot].
  - unfold set_var. cbn [s_vars]. rewrite (put_app _ _ _ _ _ H). reflexivity.
  - unfold set_member. cbn [s_self]. rewrite (find_field d i f D F). cbn [bind]. rewrite upd_upd. reflexivity.
Qed.
Lemma T_bind iv x c r y v : bind_var y v (T iv x c r) = T ((y, v) :: iv) x c r.
Proof using. unfold T. destruct opt; reflexivity. Qed.
Lemma T_in iv x c r r' : set_in r' (T iv x c r) = T iv x c r'.
Proof using. unfold T. destruct opt; reflexivity. Qed.
Lemma T_ctx iv x c r c' : set_ctx c' (T iv x c r) = T iv x c' r.
Proof using. unfold T. destruct opt; reflexivity. Qed.
Lemma T_s_in iv x c r : s_in (T iv x c r) = r.
Proof using. unfold T. destruct opt; reflexivity. Qed.
Lemma T_s_ctx iv x c r : s_ctx (T iv x c r) = c.
Proof using. unfold T. destruct opt; reflexivity. Qed.
Lemma T_ps iv x c r : self_ps (T iv x c r) = ps.
Proof using. unfold T. destruct opt; reflexivity. Qed.
Lemma T_fs A (e : M_Gen.expr A) idx iv x c r : local i e -> e idx ps (self_fs (T iv x c r)) = e idx ps fs.
Proof using. intros L. unfold T. destruct opt; [reflexivity|]. apply local_upd, L. Qed.
Definition base (x : value) : list (string * lvar) := if opt then ("optional_value", VVal x) :: bv else bv.
Lemma T_vars iv x c r : s_vars (T iv x c r) = iv ++ base x.
Proof using. unfold T, base. destruct opt; reflexivity. Qed.
Lemma T_set_vars iv iv' x c r : set_vars (iv' ++ s_vars (T iv x c r)) (T iv x c r) = T (iv' ++ iv) x c r.
Proof using. unfold T. destruct opt; unfold set_vars; cbn; now rewrite <- app_assoc. Qed.
Lemma T_leave iv iv' x x' c r c' r' s0 : s0 = T iv x c r -> leave s0 (T (iv' ++ iv) x' c' r') = T iv x' c' r'.
Proof using.
  intros ->. rewrite (leave_vars _ _ iv' (iv ++ base x')).
  - unfold T, base. destruct opt; reflexivity.
  - rewrite T_vars. now rewrite <- app_assoc.
  - rewrite T_vars, !app_length. f_equal. unfold base. destruct opt; reflexivity.
Qed.
Lemma T_bits b iv x c r : match b with BDyn _ e => local i e | _ => True end -> bits_of_type b (T iv x c r) = num_bits b ps fs.
Proof using.
  intros L. unfold bits_of_type, num_bits. rewrite T_ps. destruct b; try reflexivity. now rewrite (T_fs _ _ 0 iv x c r L).
Qed.
Lemma type_local : match f_ty (lowerf f) with
  | TB (BDyn _ e) => local i e
  | TB _ => True
  | M_Gen.TRef _ args => Forall (local i) args
  end.
Proof using FO. apply FO. Qed.

Lemma read_type_sim pk x iv c r : sf_array f = None -> (pk = true -> packable_type (sf_ty f) = true) -> free iv ->
  sim (fun a s' => s' = T iv (fst (fst a)) (snd (fst a)) (snd a))
    (decode_type E im pk i (lower_type I defs n false (sf_ty f)) ps fs x c r)
    (run (map Do (read_type pk i (sf_ty f) (ToSpot target_spot) target_spot)) (T iv x c r)).
Proof using D F OLD FO.
  intros SA P H. pose proof type_local as TL. unfold lower_field in TL. cbn [f_ty] in TL. rewrite SA in TL.
  unfold read_type. destruct (sf_ty f) as [b|sg a|k args].
  - cbn [lower_type decode_type] in *. assert (match b with BDyn _ e => local i e | _ => True end) as LB by exact TL. destruct pk.
    + cbn [packable_type] in P. rewrite (P eq_refl). replace (never_packed (SBuiltin b)) with false
        by (destruct b; try reflexivity; discriminate (P eq_refl)).
      cbn [andb negb map]. rewrite run_one, exec_do. cbn [M_Code.do_line scalar_of lower_type bind]. unfold in_context.
      rewrite T_s_ctx, T_s_in, (T_bits b iv x c r LB).
      apply sim_same. intros [[v r'] c'] _. rewrite T_in, T_ctx, (T_set iv x v _ _ H). apply sim_ok. reflexivity.
    + cbn [andb map]. rewrite run_one, exec_do. cbn [M_Code.do_line scalar_of lower_type bind].
      rewrite T_s_in, (T_bits b iv x c r LB).
      apply sim_same. intros m _. apply sim_same. intros [v r'] _. rewrite T_in, (T_set iv x v _ _ H). apply sim_ok. reflexivity.
  - cbn [lower_type decode_type bty_packable never_packed negb] in *.
    destruct pk; cbn [andb map]; rewrite run_one, exec_do; cbn [M_Code.do_line]; unfold scalar_of, in_context; cbn [lower_type bind];
      rewrite ?T_s_ctx, T_s_in, (T_bits (BDyn sg (in_width I n false a)) iv x c r TL).
    + apply sim_same. intros [[v r'] c'] _. rewrite T_in, T_ctx, (T_set iv x v _ _ H). apply sim_ok. reflexivity.
    + apply sim_same. intros m _. apply sim_same. intros [v r'] _. rewrite T_in, (T_set iv x v _ _ H). apply sim_ok. reflexivity.
  - cbn [lower_type decode_type]. destruct pk; cbn [map]; rewrite run_one, exec_do; cbn [M_Code.do_line]; rewrite (T_spot iv x c r H); cbn [bind];
      rewrite T_s_in, ?T_s_ctx.
    + apply sim_same. intros [[v r'] c'] _. rewrite T_in, T_ctx, (T_set iv x v _ _ H). apply sim_ok. reflexivity.
    + apply sim_same. intros [[v c'] r'] _. rewrite T_in, (T_set iv x v _ _ H). apply sim_ok. reflexivity.
Qed.

(** ** Objects with arguments, not in an array *)
Lemma T_out iv x c r y : assoc iv y = None -> String.eqb y "optional_value" = false -> assoc (s_vars (T iv x c r)) y = assoc bv y.
Proof using.
  intros H N. rewrite T_vars, assoc_app, H. unfold base. destruct opt; [|reflexivity]. cbn [assoc]. now rewrite N.
Qed.
Lemma T_arg_out iv x c r q : assoc iv "param_index" = None ->
  (forall idx, in_arg I n false (it_type q) (it_arg q) idx ps (self_fs (T iv x c r)) = in_arg I n false (it_type q) (it_arg q) idx ps fs) ->
  arg_value I n (T iv x c r) q = in_arg I n false (it_type q) (it_arg q) 0 ps fs.
Proof using BX. intros H L. rewrite arg_out; [now rewrite T_ps, L|]. rewrite T_out; [exact BX|exact H|reflexivity]. Qed.
Lemma args_local b k args j : Forall (local i) (lower_args I defs n b k j args) ->
  forall q, In q (inits defs k j args) -> local i (in_arg I n b (it_type q) (it_arg q)).
Proof using.
  revert j. induction args as [|a t IH]; intros j L q Q; [destruct Q|]. cbn [lower_args inits] in *. inversion L; subst.
  destruct Q as [<-|Q]; [assumption|]. eapply IH; eassumption.
Qed.
Lemma args_values' b idx s k args : (forall q, In q (inits defs k 0 args) -> ble (in_arg I n b (it_type q) (it_arg q) idx ps fs) (arg_value I n s q)) ->
  match eval_args (lower_args I defs n b k 0 args) idx ps fs with
  | Ok qs => Forall2 (fun q x => arg_value I n s q = Ok x) (inits defs k 0 args) qs
  | Err _ => False
  | _ => True
  end.
Proof using CA.
  generalize 0%nat. induction args as [|a t IH]; intros j Q; [constructor|]. cbn [lower_args eval_args inits].
  specialize (Q (Init (M_Code.param_name defs k j) (param_type defs k j) a) (or_introl eq_refl)) as Q0. cbn [it_type it_arg] in Q0.
  destruct (in_arg I n b (param_type defs k j) a idx ps fs) as [x|er| |] eqn:A0; cbn [bind]; try exact Logic.I; [|destruct (CA _ _ _ _ _ _ _ A0)].
  specialize (IH (S j) (fun q H => Q q (or_intror H))).
  destruct (eval_args (lower_args I defs n b k (S j) t) idx ps fs) as [qs| | |]; cbn [bind]; try exact Logic.I; [|exact IH].
  constructor; [|exact IH]. destruct Q0 as [Q0|[Q0|Q0]]; [discriminate Q0|discriminate Q0|symmetry; exact Q0].
Qed.

Lemma fresh_sim iv x c r : sf_array f = None -> assoc iv "param_index" = None -> 
  sim (fun v s' => s' = T (("initial_value", VVal v) :: iv) x c r)
    (fresh_item im (lower_type I defs n false (sf_ty f)) ps fs 0)
    (do_line match type_args (sf_ty f) with
             | [] => LLetDefault "initial_value" false (sf_ty f)
             | _ => LLetLiteral "initial_value" (type_number (sf_ty f)) (inits defs (type_number (sf_ty f)) 0 (type_args (sf_ty f)))
                      (Nat.ltb 0 (all_fields defs (type_number (sf_ty f))))
             end (T iv x c r)).
Proof using PR CA DF AF FO BX.
  intros SA H. pose proof type_local as TL. unfold lower_field in TL. cbn [f_ty] in TL. rewrite SA in TL.
  assert (do_line (LLetDefault "initial_value" false (sf_ty f)) (T iv x c r) = (do v <- item_default im (lower_type I defs n false (sf_ty f)) ; Ok (T (("initial_value", VVal v) :: iv) x c r))) as LD.
  { cbn [M_Code.do_line]. destruct (item_default im _); cbn [bind]; [rewrite T_bind|..]; reflexivity. }
  destruct (sf_ty f) as [b|sg a|k args] eqn:TY; cbn [type_args].
  - rewrite LD. cbn [lower_type fresh_item]. apply sim_tail. intros v _. apply sim_ok. reflexivity.
  - rewrite LD. cbn [lower_type fresh_item]. apply sim_tail. intros v _. apply sim_ok. reflexivity.
  - destruct args as [|a t].
    + rewrite LD. cbn [lower_type lower_args fresh_item]. apply sim_tail. intros v _. apply sim_ok. reflexivity.
    + destruct (args_of defs PR f a t k AF TY) as (e & K & DE & L). cbn [type_number M_Code.do_line].
      cbn [lower_type] in *. 
      assert (forall q, In q (inits defs k 0 (a :: t)) -> ble (in_arg I n false (it_type q) (it_arg q) 0 ps fs) (arg_value I n (T iv x c r) q)) as AV.
      { intros q Q. rewrite (T_arg_out iv x c r q H); [apply ble_refl|]. intros idx. apply T_fs. apply (args_local _ _ _ _ TL q Q). }
      pose proof (args_values' false 0 (T iv x c r) k (a :: t) AV) as QS.
      replace (Nat.ltb 0 (all_fields defs k)) with true.
      2:{ symmetry. apply Nat.ltb_lt. unfold all_fields. rewrite K, <- L. cbn [List.length]. lia. }
      unfold fresh_item. cbn [lower_args]. change (in_arg I n false (param_type defs k 0) a :: lower_args I defs n false k 1 t)
        with (lower_args I defs n false k 0 (a :: t)).
      destruct (eval_args (lower_args I defs n false k 0 (a :: t)) 0 ps fs) as [qs| | |]; cbn [bind]; try exact Logic.I; [|destruct QS].
      pose proof (literal_rest (T iv x c r) k e (fun _ => true) (a :: t) qs K DE DF ltac:(discriminate) L QS) as LR.
      rewrite filter_all in LR by reflexivity.
      eapply sim_bind; [exact LR|]. intros v v' (ps0 & fs0 & -> & PL & ->). cbn [set_params].
      pose proof (forall2_len _ _ _ _ _ QS) as LQ. rewrite inits_length in LQ.
      rewrite mixed_all; [|reflexivity|lia|lia]. rewrite T_bind. apply sim_ok. reflexivity.
Qed.

(** ** Arrays of objects with arguments *)
Lemma put_front y v (l l2 m : list (string * lvar)) : put y v l = Some l2 -> put y v (l ++ m) = Some (l2 ++ m).
Proof using.
  revert l2. induction l as [|[z u] t IH]; intros l2 H; [discriminate H|]. cbn [put app] in *. destruct (String.eqb y z).
  - injection H as <-. reflexivity.
  - destruct (put y v t) as [t2|]; [|discriminate H]. injection H as <-. rewrite (IH t2 eq_refl). reflexivity.
Qed.
Lemma T_put y v iv iv2 x c r : put y v iv = Some iv2 -> set_var y v (T iv x c r) = Ok (T iv2 x c r).
Proof using.
  intros H. unfold set_var. rewrite T_vars, (put_front _ _ _ _ _ H). unfold T, base. destruct opt; reflexivity.
Qed.
Lemma T_look iv x c r y v : assoc iv y = Some v -> assoc (s_vars (T iv x c r)) y = Some v.
Proof using. intros H. now rewrite T_vars, assoc_app, H. Qed.
Lemma T_arg_in iv x c r q idx : assoc iv "param_index" = Some (VNum idx) -> local i (in_arg I n true (it_type q) (it_arg q)) ->
  arg_value I n (T iv x c r) q = in_arg I n true (it_type q) (it_arg q) idx ps fs.
Proof using. intros H L. unfold arg_value. rewrite (T_look _ _ _ _ _ _ H), T_ps. apply T_fs, L. Qed.

Lemma set_items_run k e g args iv x c r : nth_error defs k = Some e -> NoDup (member_names e) ->
  forall qs pre ps0 s fs0, List.length qs = List.length args -> List.length ps0 = List.length args ->
  (List.length pre + List.length args = List.length (sdef_params e))%nat ->
  Forall2 (fun q y => forall v0, arg_value I n (T (("zs_item", v0) :: iv) x c r) q = Ok y) (inits defs k (List.length pre) args) qs ->
  run (map Do (map (LSetItem "zs_item" k) (filter (fun q => g (it_arg q)) (inits defs k (List.length pre) args))))
    (T (("zs_item", VVal (VObj s (pre ++ ps0) fs0)) :: iv) x c r)
  = Ok (T (("zs_item", VVal (VObj s (pre ++ mixed g args qs ps0) fs0)) :: iv) x c r).
Proof using.
  intros K D'. induction args as [|a t IH]; intros [|q qs] pre [|p0 ps0] s fs0 L M N Q; try discriminate; [reflexivity|].
  cbn [List.length] in *. cbn [inits filter mixed]. cbn [it_arg]. cbn [inits] in Q. inversion Q as [|? ? ? ? Q0 Q1]; subst.
  destruct (nth_error (sdef_params e) (List.length pre)) as [pf|] eqn:PF; [|apply nth_error_None in PF; lia].
  specialize (IH qs (pre ++ [if g a then q else p0]) ps0 s fs0 ltac:(lia) ltac:(lia) ltac:(rewrite app_length; cbn [List.length]; lia)).
  rewrite app_length in IH. cbn [List.length] in IH. rewrite Nat.add_1_r in IH. specialize (IH Q1).
  rewrite <- !app_assoc in IH. cbn [app] in IH.
  destruct (g a).
  - cbn [map M_Code.run]. rewrite exec_do. cbn [M_Code.do_line]. unfold decl. rewrite K. cbn [bind]. unfold var_value.
    rewrite (T_look _ _ _ _ "zs_item" (VVal (VObj s (pre ++ p0 :: ps0) fs0))) by reflexivity. cbn [bind]. rewrite Q0. cbn [bind it_name].
    unfold set_member, M_Code.param_name. rewrite K, PF, (find_param e _ pf D' PF). cbn [bind]. rewrite upd_mid.
    rewrite (T_put _ _ _ (("zs_item", VVal (VObj s (pre ++ q :: ps0) fs0)) :: iv)) by reflexivity. cbn [bind]. exact IH.
  - exact IH.
Qed.

Lemma no_fields k e : nth_error defs k = Some e -> sdef_params e <> [] -> data_fields defs k = 0%nat -> sdef_fields e = [] /\ has_selector e = false.
Proof using PR.
  intros K NP Z0. destruct (PR e (nth_error_In _ _ K)) as (_ & _ & P). unfold data_fields in Z0. rewrite K in Z0.
  destruct e as [nm qs fl|nm qs se cases dflt|nm qs fl|nm b l|nm b l]; cbn [sdef_params sdef_fields has_selector] in *.
  - destruct fl; [split; reflexivity|discriminate Z0].
  - destruct cases; [|discriminate Z0]. split; [|reflexivity]. cbn. destruct dflt as [[g|]|]; try reflexivity. destruct (P g eq_refl).
  - destruct fl; [destruct (P eq_refl)|discriminate Z0].
  - destruct (NP eq_refl).
  - destruct (NP eq_refl).
Qed.

Definition late (q : init) : bool := uses_index (it_arg q).
Definition item_lines (k : nat) (args : list sarg) : list line :=
  let l := inits defs k 0 args in
  LLetLiteral "zs_item" k (filter (fun q => negb (late q)) l) (Nat.ltb 0 (data_fields defs k) || existsb late l)
  :: (if existsb late l then map (LSetItem "zs_item" k) (filter late l) else []).
Lemma item_sim iv x c r k a t idx : sf_array f <> None -> sf_ty f = SRef k (a :: t) -> assoc iv "param_index" = Some (VNum idx) ->
  sim (fun v s' => s' = T (("zs_item", VVal v) :: iv) x c r)
    (fresh_item im (lower_type I defs n true (sf_ty f)) ps fs idx)
    (run (map Do (item_lines k (a :: t))) (T iv x c r)).
Proof using PR CA DF AF FO.
  intros SA TY H. pose proof type_local as TL. unfold lower_field in TL. cbn [f_ty] in TL.
  replace (match sf_array f with Some _ => true | None => false end) with true in TL by (destruct (sf_array f); [reflexivity|destruct (SA eq_refl)]).
  destruct (args_of defs PR f a t k AF TY) as (e & K & DE & L). rewrite TY in *. cbn [lower_type] in *.
  assert (sdef_params e <> []) as NP by (intros X; rewrite X in L; discriminate L).
  assert (forall q, In q (inits defs k 0 (a :: t)) -> ble (in_arg I n true (it_type q) (it_arg q) idx ps fs) (arg_value I n (T iv x c r) q)) as AV.
  { intros q Q. rewrite (T_arg_in iv x c r q idx H); [apply ble_refl|]. apply (args_local _ _ _ _ TL q Q). }
  pose proof (args_values' true idx (T iv x c r) k (a :: t) AV) as QS.
  unfold fresh_item. cbn [lower_args]. change (in_arg I n true (param_type defs k 0) a :: lower_args I defs n true k 1 t)
    with (lower_args I defs n true k 0 (a :: t)).
  destruct (eval_args (lower_args I defs n true k 0 (a :: t)) idx ps fs) as [qs| | |]; cbn [bind]; try exact Logic.I; [|destruct QS].
  pose proof (forall2_len _ _ _ _ _ QS) as LQ. rewrite inits_length in LQ.
  unfold item_lines. cbv zeta. cbn [map M_Code.run]. rewrite exec_do. cbn [M_Code.do_line]. rewrite bind_bind.
  destruct (Nat.ltb 0 (data_fields defs k) || existsb late (inits defs k 0 (a :: t))) eqn:RS.
  - eapply sim_bind; [apply (literal_rest (T iv x c r) k e (fun b => negb (uses_index b)) (a :: t) qs K DE DF ltac:(discriminate) L QS)|].
    intros v v' (ps0 & fs0 & -> & PL & ->). cbn [set_params bind]. rewrite T_bind.
    destruct (existsb late (inits defs k 0 (a :: t))) eqn:DL.
    + pose proof (set_items_run k e uses_index (a :: t) iv x c r K DE qs [] (mixed (fun b => negb (uses_index b)) (a :: t) qs ps0) 0 fs0) as SR.
      cbn [app] in SR. change (@List.length value []) with 0%nat in SR. change (filter late (inits defs k 0 (a :: t))) with (filter (fun q => uses_index (it_arg q)) (inits defs k 0 (a :: t))). rewrite SR; [|lia|rewrite mixed_length; lia|exact L|].
      * apply sim_ok. rewrite mixed_both; [reflexivity|lia|lia].
      * clear - QS H TL.
        assert (forall q, In q (inits defs k 0 (a :: t)) -> local i (in_arg I n true (it_type q) (it_arg q))) as LO by (intros q Q; apply (args_local _ _ _ _ TL q Q)).
        revert LO. revert QS. generalize (inits defs k 0 (a :: t)) as l. intros l QS' LO. induction QS' as [|q y l qs0 Q0 _ IH]; constructor.
        -- intros v0. rewrite (T_arg_in _ x c r q idx); [|exact H|apply LO; left; reflexivity]. rewrite <- Q0. symmetry.
           apply T_arg_in; [exact H|apply LO; left; reflexivity].
        -- apply IH. intros q' Q'. apply LO. right. exact Q'.
    + cbn [map M_Code.run]. apply sim_ok. rewrite mixed_all; [reflexivity| |lia|lia].
      intros b B. apply negb_true_iff. 
      assert (exists q, In q (inits defs k 0 (a :: t)) /\ it_arg q = b) as (q & Q & <-).
      { clear - B. revert B. generalize 0%nat. generalize (a :: t). intros l. induction l as [|a' l IH]; intros j; [intros []|intros [->|B]].
        - exists (Init (M_Code.param_name defs k j) (param_type defs k j) b). split; [left; reflexivity|reflexivity].
        - destruct (IH (S j) B) as (q & Q & E0). exists q. split; [right; exact Q|exact E0]. }
      apply (existsb_none _ _ _ DL q Q).
  - apply orb_false_iff in RS. destruct RS as [Z0 DL]. apply Nat.ltb_ge in Z0. destruct (no_fields k e K NP ltac:(lia)) as [NF NS].
    rewrite DL. cbn [map M_Code.run]. unfold literal, decl. rewrite K. cbn [bind].
    rewrite (filter_all _ (fun q => negb (late q))).
    2:{ intros q Q. apply negb_true_iff. apply (existsb_none _ _ _ DL q Q). }
    pose proof (values_of_filter (T iv x c r) (fun _ => true) _ _ QS) as VF. rewrite !filter_all in VF by reflexivity. rewrite VF. cbn [bind].
    rewrite NS, map_map. cbn [fst snd]. rewrite map_map. cbn [snd].
    replace (map (fun x0 : init * value => it_name (fst x0)) (combine (inits defs k 0 (a :: t)) qs)) with (map sf_name (sdef_params e ++ sdef_fields e)).
    2:{ rewrite NF, app_nil_r. change (sdef_params e) with (skipn 0 (sdef_params e)). rewrite <- (inits_names k e (a :: t) K 0%nat L). clear - QS.
        induction QS; cbn [map combine fst]; [reflexivity|now rewrite <- IHQS]. }
    rewrite same_names_refl. cbn [negb andb].
    replace (map (fun x0 : init * value => snd x0) (combine (inits defs k 0 (a :: t)) qs)) with qs.
    2:{ clear - QS. induction QS; cbn [map combine snd]; [reflexivity|now rewrite <- IHQS]. }
    cbn [bind]. rewrite T_bind.
    destruct (oi_default (im k)) as [v|er| |] eqn:DV; cbn [bind]; try exact Logic.I; [|destruct (proj2 DF _ _ DV)].
    destruct (proj1 DF k e v K NP DV) as (ps0 & fs0 & -> & PL & FL). rewrite NF in FL. destruct fs0; [|discriminate FL]. apply sim_ok. reflexivity.
Qed.

Definition iv0 (kx : ctxnode) (z : Z) : list (string * lvar) := [(packing_name f, VNode kx); (length_name f, VNum z)].
Lemma free0 kx z : free (iv0 kx z).
Proof using.
  unfold free, iv0. cbn [assoc]. change (String.eqb "optional_value" (packing_name f)) with false. cbv iota. now rewrite optional_not_length.
Qed.
Lemma items_loop_sim k a t ar c : sf_array f <> None -> sf_ty f = SRef k (a :: t) -> arr = Some ar ->
  forall m kx z acc idx r,
  sim (fun res s' => s' = T (iv0 (snd (fst res)) z) (VArr (acc ++ fst (fst res))) c (snd res))
    (rloop ar (by_index f) (fresh_item im (lower_type I defs n true (sf_ty f)) ps fs) m kx idx r)
    (for_each (run (map Do (item_lines k (a :: t) ++ [LReadOne (array_name f) (packing_name f) "zs_item" (by_index f); LPush target_spot "zs_item"])))
       (map (fun i => [("param_index", VNum i)]) (count m idx)) (T (iv0 kx z) (VArr acc) c r)).
Proof using D PR CA DF F AF OLD FO BX AR.
  intros SA TY AE. unfold arr_in in AR. rewrite AE in AR. destruct (sf_array f) as [sa|] eqn:SF; [|contradiction]. destruct AR as [AV _].
  induction m as [|m IH]; intros kx z acc idx r; [apply sim_ok; cbn [fst snd]; now rewrite app_nil_r|].
  cbn [rloop count map for_each]. rewrite T_set_vars. rewrite do_lines, bind_bind.
  eapply sim_bind; [apply (item_sim ([("param_index", VNum idx)] ++ iv0 kx z) (VArr acc) c r k a t idx); [rewrite SF; discriminate|exact TY|reflexivity]|].
  intros v s' ->. cbn [map M_Code.run]. rewrite exec_do. cbn [M_Code.do_line].
  set (iv := ("zs_item", VVal v) :: [("param_index", VNum idx)] ++ iv0 kx z).
  assert (assoc iv (array_name f) = None) as NA.
  { unfold iv, iv0. cbn [app assoc]. rewrite array_not_packing, array_not_length. unfold array_name. cbn [String.append String.eqb]. reflexivity. }
  unfold var_array at 1. rewrite (T_out iv (VArr acc) c r (array_name f) NA eq_refl), AV. cbn [bind].
  unfold var_node at 1. rewrite (T_look iv (VArr acc) c r (packing_name f) (VNode kx)).
  2:{ unfold iv, iv0. cbn [app assoc]. rewrite String.eqb_refl. unfold packing_name, array_name. cbn [String.append String.eqb]. reflexivity. }
  cbn [bind]. unfold var_value at 1. rewrite (T_look iv (VArr acc) c r "zs_item" (VVal v)) by reflexivity. cbn [bind]. rewrite T_s_in.
  rewrite !bind_bind. apply sim_same. intros [[v' k'] r'] _. rewrite T_in. 
  rewrite (T_put "zs_item" (VVal v') iv (("zs_item", VVal v') :: [("param_index", VNum idx)] ++ iv0 kx z)) by reflexivity. cbn [bind].
  rewrite (T_put (packing_name f) (VNode k') _ (("zs_item", VVal v') :: [("param_index", VNum idx)] ++ iv0 k' z)).
  2:{ unfold iv0. cbn [app put]. rewrite String.eqb_refl. unfold packing_name, array_name. cbn [String.append String.eqb]. reflexivity. }
  cbn [bind]. rewrite exec_do. cbn [M_Code.do_line].
  assert (free (("zs_item", VVal v') :: [("param_index", VNum idx)] ++ iv0 k' z)) as FR by (unfold free; cbn [app assoc String.eqb]; apply free0).
  rewrite (T_spot _ _ _ _ FR). cbn [bind list_of]. unfold var_value. rewrite (T_look _ _ _ _ "zs_item" (VVal v')) by reflexivity. cbn [bind].
  rewrite (T_set _ _ _ _ _ FR). cbn [bind].
  change (("zs_item", VVal v') :: [("param_index", VNum idx)] ++ iv0 k' z) with (("zs_item", VVal v') :: ("param_index", VNum idx) :: iv0 k' z).
  replace (leave (T (iv0 kx z) (VArr acc) c r) (T (("zs_item", VVal v') :: ("param_index", VNum idx) :: iv0 k' z) (VArr (acc ++ [v'])) c r'))
    with (T (iv0 k' z) (VArr (acc ++ [v'])) c r').
  2:{ symmetry. rewrite (leave_vars _ _ [("zs_item", VVal v'); ("param_index", VNum idx)] (iv0 k' z ++ base (VArr (acc ++ [v'])))).
      - unfold T, base. destruct opt; reflexivity.
      - rewrite T_vars. reflexivity.
      - rewrite T_vars, !app_length. f_equal. unfold base. destruct opt; reflexivity. }
  eapply sim_left; [apply (IH k' z (acc ++ [v']) (idx + 1) r')|]. intros [[l c'] r''] s' ->. cbn [fst snd bind]. apply sim_ok. cbn [fst snd]. now rewrite <- app_assoc.
Qed.

Lemma read_payload_sim pk x c r :
  sim (fun res s' => exists iv, s' = T iv (fst (fst res)) (snd (fst res)) (snd res) /\ free iv)
    (decode_payload E im pk arr i (lowerf f) ps fs c r)
    (run (read_payload defs pk i f target_spot) (T [] x c r)).
Proof using D PR CA DF F AF OLD FO BX AR.
  unfold decode_payload, read_payload. cbv zeta. pose proof AR as AR'. unfold arr_in in AR'.
  remember arr as arr0 eqn:AE in AR' |- *. symmetry in AE.
  destruct arr0 as [ar|]; destruct (sf_array f) as [sa|] eqn:SA; try contradiction.
  - destruct AR' as [AV _].
    assert (forall iv y c0 r0, assoc iv (array_name f) = None -> var_array (T iv y c0 r0) (array_name f) = Ok ar) as VA.
    { intros iv y c0 r0 H. unfold var_array. rewrite (T_out _ _ _ _ _ H eq_refl), AV. reflexivity. }
    cbn [M_Code.run]. rewrite exec_do. cbn [M_Code.do_line]. rewrite (VA [] x c r eq_refl). cbn [bind]. rewrite T_s_in.
    rewrite bind_bind. apply sim_same. intros [z r'] _. cbn [bind]. rewrite T_in, T_bind.
    assert (free [(length_name f, VNum z)]) as FR by (unfold free; cbn [assoc]; now rewrite optional_not_length).
    assert (assoc [(length_name f, VNum z)] (array_name f) = None) as NA by (cbn [assoc]; now rewrite array_not_length).
    assert (forall y r0 iv, assoc iv (length_name f) = None -> var_num (T (iv ++ [(length_name f, VNum z)]) y c r0) (length_name f) = Ok z) as VN.
    { intros y r0 iv H. unfold var_num. rewrite (T_look _ _ _ _ _ (VNum z)); [reflexivity|]. rewrite assoc_app, H. cbn [assoc]. now rewrite String.eqb_refl. }
    assert (forall y r0, var_num (T [(length_name f, VNum z)] y c r0) (length_name f) = Ok z) as VN0 by (intros y r0; exact (VN y r0 [] eq_refl)).
    replace (offs_of (lowerf f)) with (by_index f) by reflexivity.
    replace (f_ty (lowerf f)) with (lower_type I defs n true (sf_ty f)) by (unfold lower_field; cbn [f_ty]; now rewrite SA).
    assert (type_args (sf_ty f) = [] ->
      sim (fun res s' => exists iv, s' = T iv (fst (fst res)) (snd (fst res)) (snd res) /\ free iv)
        (do (l, r) <- array_read ar (by_index f) (fun _ => item_default im (lower_type I defs n true (sf_ty f))) z r' ; Ok (VArr l, c, r))
        (run [Do (LArrayRead (array_name f) (sf_ty f) target_spot (length_name f) (by_index f))] (T [(length_name f, VNum z)] x c r'))) as NOARGS.
    { intros _. rewrite run_one, exec_do. cbn [M_Code.do_line]. rewrite (VA _ x c r' NA). cbn [bind]. rewrite (VN0 x r'). cbn [bind]. rewrite T_s_in.
      apply sim_same. intros [l r''] _. rewrite T_in, (T_set _ _ _ _ _ FR). apply sim_ok. cbn [fst snd]. eexists. split; [reflexivity|exact FR]. }
    destruct (sf_ty f) as [b|sg a|k args] eqn:TY; cbn [type_args] in *.
    + cbn [lower_type bind] in *. apply NOARGS. reflexivity.
    + cbn [lower_type bind] in *. apply NOARGS. reflexivity.
    + destruct args as [|a t]; [cbn [lower_type lower_args bind] in *; apply NOARGS; reflexivity|].
      unfold items_tree. rewrite TY. cbn [type_args type_number]. cbv zeta. rewrite run_app. cbn [map M_Code.run].
      rewrite exec_do. cbn [M_Code.do_line]. rewrite (T_set _ _ _ _ _ FR). cbn [bind].
      rewrite exec_do. cbn [M_Code.do_line]. rewrite (VN0 _ r'). cbn [bind].
      rewrite exec_do. cbn [M_Code.do_line]. rewrite (VA _ _ c r' NA). cbn [bind lower_type lower_args].
      rewrite !bind_bind.
      destruct (at_create (a_trait ar)) as [kx| | |] eqn:CR; cbn [bind rmap]; try exact Logic.I; [|reflexivity].
      rewrite T_bind, exec_for_range. change [(packing_name f, VNode kx); (length_name f, VNum z)] with (iv0 kx z).
      rewrite bind_bind. change (iv0 kx z) with ([(packing_name f, VNode kx)] ++ [(length_name f, VNum z)]).
      rewrite VN by (cbn [assoc]; now rewrite length_not_packing). cbn [bind]. change ([(packing_name f, VNode kx)] ++ [(length_name f, VNum z)]) with (iv0 kx z).
      pose proof (items_loop_sim k a t ar c ltac:(rewrite SA; discriminate) TY AE (Z.to_nat z) kx z [] 0 r') as LP.
      eapply sim_right with (R := fun res s' => exists iv, s' = T iv (fst (fst res)) (snd (fst res)) (snd res) /\ free iv).
      2:{ intros res s' H. apply sim_ok, H. }
      rewrite TY in LP. cbn [lower_type lower_args] in LP. unfold array_read.
      set (fi := fresh_item im (M_Gen.TRef k (in_arg I n true (param_type defs k 0) a :: lower_args I defs n true k 1 t)) ps fs) in *.
      assert (sim (fun res s' => exists iv, s' = T iv (VArr (fst (fst res))) c (snd res) /\ free iv)
        (rloop ar (by_index f) fi (Z.to_nat z) kx 0 r')
        (for_each (run (map Do (item_lines k (a :: t) ++ [LReadOne (array_name f) (packing_name f) "zs_item" (by_index f); LPush target_spot "zs_item"])))
          (map (fun i => [("param_index", VNum i)]) (count (Z.to_nat z) 0)) (T (iv0 kx z) (VArr []) c r'))) as LP'.
      { eapply sim_weaken; [|exact LP]. intros res s' ->. eexists. split; [reflexivity|apply free0]. }
      clear LP. unfold item_lines in LP'. cbv zeta in LP'. cbn [map app] in LP' |- *.
      destruct (a_packed ar) eqn:PK.
      * rewrite CR. cbn [bind]. rewrite (rloop_packed ar (by_index f) fi PK). rewrite bind_bind. eapply sim_left; [exact LP'|].
        intros [[l c'] r''] s' H. cbn [bind fst snd] in *. apply sim_ok, H.
      * rewrite (rloop_plain ar (by_index f) fi PK _ kx). rewrite bind_bind. eapply sim_left; [exact LP'|].
        intros [[l c'] r''] s' H. cbn [bind fst snd] in *. apply sim_ok, H.
  - replace (f_ty (lowerf f)) with (lower_type I defs n false (sf_ty f)) by (unfold lower_field; cbn [f_ty]; now rewrite SA).
    cbn [map app M_Code.run]. rewrite exec_do.
    eapply sim_bind; [exact (fresh_sim [] x c r SA eq_refl)|]. intros v s' ->.
    rewrite exec_do. cbn [M_Code.do_line]. unfold var_value. rewrite (T_look _ _ _ _ _ (VVal v)) by reflexivity. cbn [bind].
    rewrite T_set by reflexivity. cbn [bind]. rewrite packable_lower.
    eapply sim_weaken; [|apply read_type_sim; [exact SA| |reflexivity]].
    + intros res s' ->. eexists. split; [reflexivity|]. reflexivity.
    + intros H. apply andb_prop in H. destruct H as [_ H]. unfold packable in H. rewrite SA in H.
      destruct (sf_is_offset f); [discriminate H|exact H].
Qed.
Lemma read_pre_sim iv x c r : sim (fun r' s' => s' = T iv x c r') (field_align_reader (lowerf f) r) (run (map Do (read_pre f)) (T iv x c r)).
Proof using.
  unfold field_align_reader, lower_field, read_pre, by_offset. cbn [f_align f_offset]. rewrite do_lines.
  eapply sim_bind with (R := fun r' s' => s' = T iv x c r').
  - destruct (sf_align f =? 0); [apply sim_ok; reflexivity|]. cbn [map]. rewrite run_one, exec_do. cbn [M_Code.do_line]. rewrite T_s_in.
    apply sim_tail. intros w' _. rewrite T_in. apply sim_ok. reflexivity.
  - intros w' s' ->. destruct (sf_offset f); [apply sim_ok; reflexivity| |apply sim_ok; reflexivity].
    cbn [map]. rewrite run_one, exec_do. cbn [M_Code.do_line]. rewrite T_s_in.
    apply sim_tail. intros w'' _. rewrite T_in. apply sim_ok. reflexivity.
Qed.
End Read.

Lemma no_item pk i f ps fs arr c r : calm I n -> defaults_fit -> sf_array f = None -> arr = None ->
  match item_default im (lower_type I defs n false (sf_ty f)) with
  | Ok _ => True
  | Err _ => False
  | _ => match decode_payload E im pk arr i (lowerf f) ps fs c r with Ok _ | Err _ => False | _ => True end
  end.
Proof using.
  intros CA DF SA ->. unfold decode_payload.
  replace (f_ty (lowerf f)) with (lower_type I defs n false (sf_ty f)) by (unfold lower_field; cbn [f_ty]; now rewrite SA).
  destruct (sf_ty f) as [b|sg a|k args]; try (destruct b; exact Logic.I); try exact Logic.I.
  cbn [lower_type item_default]. destruct (oi_default (im k)) as [v|er| |] eqn:DV; try exact Logic.I; [destruct (proj2 DF _ _ DV)|..].
  - destruct args as [|a t]; cbn [lower_args fresh_item item_default]; rewrite DV; [exact Logic.I|]. cbn [bind].
    change (in_arg I n false (param_type defs k 0) a :: lower_args I defs n false k 1 t) with (lower_args I defs n false k 0 (a :: t)).
    assert (forall j l e, eval_args (lower_args I defs n false k j l) 0 ps fs <> Err e) as NE.
    { intros j l. revert j. induction l as [|b l IH]; intros j e; [discriminate|]. cbn [lower_args eval_args].
      destruct (in_arg I n false (param_type defs k j) b 0 ps fs) as [x|er| |] eqn:A0; cbn [bind]; try discriminate; [|destruct (CA _ _ _ _ _ _ _ A0)].
      specialize (IH (S j)). destruct (eval_args _ 0 ps fs); cbn [bind]; try discriminate. intros H. injection H as ->. exact (IH _ eq_refl). }
    specialize (NE 0%nat (a :: t)). destruct (eval_args _ 0 ps fs) as [|er| |]; cbn [bind]; try exact Logic.I. destruct (NE _ eq_refl).
  - destruct args as [|a t]; cbn [lower_args fresh_item item_default]; rewrite DV; [exact Logic.I|]. cbn [bind].
    change (in_arg I n false (param_type defs k 0) a :: lower_args I defs n false k 1 t) with (lower_args I defs n false k 0 (a :: t)).
    assert (forall j l e, eval_args (lower_args I defs n false k j l) 0 ps fs <> Err e) as NE.
    { intros j l. revert j. induction l as [|b l IH]; intros j e; [discriminate|]. cbn [lower_args eval_args].
      destruct (in_arg I n false (param_type defs k j) b 0 ps fs) as [x|er| |] eqn:A0; cbn [bind]; try discriminate; [|destruct (CA _ _ _ _ _ _ _ A0)].
      specialize (IH (S j)). destruct (eval_args _ 0 ps fs); cbn [bind]; try discriminate. intros H. injection H as ->. exact (IH _ eq_refl). }
    specialize (NE 0%nat (a :: t)). destruct (eval_args _ 0 ps fs) as [|er| |]; cbn [bind]; try exact Logic.I. destruct (NE _ eq_refl).
Qed.

Section ReadField.
Variables (sel : Z) (ps : list value) (wr : writer) (st en : Z) (rt : option Z).
Notation St fs vars c r := (State (VObj sel ps fs) vars c wr r st en rt).
Hypothesis (D : NoDup (member_names d)) (PR : checked_types defs) (CA : calm I n) (DF : defaults_fit).
Lemma read_field_sim pk force i f fs vars c r : nth_error (sdef_fields d) i = Some f -> args_fit defs f -> field_ok i (lowerf f) -> plain_vars vars ->
  sim (fun res s' => exists vs, plain_vars vs /\ s' = St (upd i (fst (fst res)) fs) (vs ++ vars) (snd (fst res)) (snd res))
    (decode_field E im pk force i (lowerf f) ps fs c r)
    (run (let_tree force f ++ read_tree defs pk i f) (St fs vars c r)).
Proof using D PR CA DF.
  intros F AF FO PV. unfold decode_field. apply sim_get. intros old OLD. rewrite run_app.
  eapply sim_bind; [apply (let_sim E im I defs n d force f (St fs vars c r) sel ps fs eq_refl)|].
  cbn [s_vars]. intros arr s' (vs & PVS & -> & AR). change (set_vars (vs ++ vars) (St fs vars c r)) with (St fs (vs ++ vars) c r).
  assert (plain_vars (vs ++ vars)) as PA by (apply Forall_app; split; assumption).
  eapply sim_weaken with (Q := fun res s' => s' = St (upd i (fst (fst res)) fs) (vs ++ vars) (snd (fst res)) (snd res)).
  { intros cw s' ->. exists vs. split; [exact PVS|reflexivity]. }
  assert (forall R0 : res (value * ctxnode * reader),
    sim (fun res s' => exists ivs, s' = St (upd i (fst (fst res)) fs) (ivs ++ vs ++ vars) (snd (fst res)) (snd res)) R0 (run (read_inner defs pk i f) (St fs (vs ++ vars) c r)) ->
    sim (fun res s' => s' = St (upd i (fst (fst res)) fs) (vs ++ vars) (snd (fst res)) (snd res)) R0 (block E im I defs n d (read_inner defs pk i f) (St fs (vs ++ vars) c r))) as BL.
  { intros R0 H. unfold block. eapply sim_right; [exact H|]. intros res s' [ivs ->]. rewrite (leave_vars _ _ ivs (vs ++ vars)); [|reflexivity|reflexivity].
    apply sim_ok. reflexivity. }
  assert (sim (fun res s' => exists ivs, s' = St (upd i (fst (fst res)) fs) (ivs ++ vs ++ vars) (snd (fst res)) (snd res))
    (do r <- field_align_reader (lowerf f) r ;
     if f_optional (lowerf f) then
       do (present, r) <- br_bool r ;
       if (present : bool) then
         do (vc, r) <- decode_payload E im pk arr i (lowerf f) ps fs c r ;
         let (v, ctx) := (vc : value * ctxnode) in Ok (VSome v, ctx, r)
       else Ok (old, c, r)
     else decode_payload E im pk arr i (lowerf f) ps fs c r)
    (run (read_inner defs pk i f) (St fs (vs ++ vars) c r))) as INNER.
  2:{ unfold read_tree. rewrite run_one. unfold clause. unfold lower_field at 1. cbn [f_clause]. destruct (sf_clause f) as [a|]; cbn [option_map].
      - rewrite exec_if. unfold self_ps, self_fs. cbn [s_self]. apply sim_same. intros b _. destruct b; cbn [negb].
        + apply BL, INNER.
        + apply sim_ok. cbn [fst snd]. now rewrite (upd_self _ _ _ _ OLD).
      - cbn [bind negb]. rewrite exec_open. apply BL, INNER. }
  clear BL. unfold read_inner. rewrite run_app.
  pose proof (read_pre_sim sel ps fs wr st en rt i f false (vs ++ vars) [] old c r) as RP. unfold T in RP. cbn [app] in RP.
  rewrite (upd_self _ _ _ _ OLD) in RP.
  eapply sim_bind; [exact RP|]. intros r' s' ->. clear RP.
  replace (f_optional (lowerf f)) with (sf_optional f) by reflexivity.
  destruct (sf_optional f).
  - cbn [M_Code.run]. rewrite exec_do. cbn [M_Code.do_line s_in]. rewrite bind_bind. apply sim_same. intros [b r''] _. cbn [bind].
    change (bind_var "present" (VFlag b) (set_in r'' (St fs (vs ++ vars) c r'))) with (St fs (("present", VFlag b) :: vs ++ vars) c r'').
    rewrite exec_present. unfold var_flag. cbn [s_vars assoc]. change (String.eqb "present" "present") with true. cbv iota. cbn [bind].
    destruct b.
    2:{ cbn [otherwise bind]. apply sim_ok. cbn [fst snd]. exists [("present", VFlag false)]. now rewrite (upd_self _ _ _ _ OLD). }
    set (bv := ("present", VFlag true) :: vs ++ vars).
    assert (assoc bv "param_index" = None) as BX by (unfold bv; cbn [assoc String.eqb]; apply plain_index, PA).
    assert (arr_in I n f arr ps fs bv) as AR2 by (unfold arr_in in *; destruct arr, (sf_array f); exact AR).
    cbv iota. match goal with |- sim ?Q ?x (bind (block _ _ _ _ _ _ ?b ?s) _) =>
      assert (sim (fun res s' => s' = St (upd i (fst (fst res)) fs) bv (snd (fst res)) (snd res)) x (block E im I defs n d b s)) as BK
    end.
    2:{ eapply sim_right; [exact BK|]. intros res s' ->. apply sim_ok. exists [("present", VFlag true)]. reflexivity. }
    unfold block. cbn [M_Code.run]. rewrite exec_do. cbn [M_Code.do_line].
    assert (forall x0, sim (fun res s' => s' = St (upd i (fst (fst res)) fs) bv (snd (fst res)) (snd res))
      (do (vc, r0) <- decode_payload E im pk arr i (lowerf f) ps fs c r'' ; let (v, ctx) := (vc : value * ctxnode) in Ok (VSome v, ctx, r0))
      (do s' <- run (read_payload defs pk i f (OnVar "optional_value") ++ [Do (LStore (sf_name f))]) (bind_var "optional_value" (VVal x0) (St fs bv c r'')) ;
       Ok (leave (St fs bv c r'') s'))) as GO.
    { intros x0. rewrite run_app, bind_bind.
      pose proof (read_payload_sim sel ps fs wr st en rt i f old true bv arr D PR CA DF F AF OLD FO BX AR2 pk x0 c r'') as RP.
      unfold target_spot in RP.
      eapply sim_bind; [exact RP|]. intros [[v c'] r3] s' (iv & -> & FR). cbn [fst snd]. unfold T. cbn [app].
      rewrite run_one, exec_do. cbn [M_Code.do_line]. unfold var_value. cbn [s_vars]. rewrite assoc_app, FR. cbn [assoc].
      change (String.eqb "optional_value" "optional_value") with true. cbv iota. cbn [bind set_spot s_self].
      unfold set_member. rewrite (find_field d i f D F). cbn [bind].
      rewrite (leave_vars _ _ (iv ++ [("optional_value", VVal v)]) bv).
      - apply sim_ok. reflexivity.
      - cbn [set_self s_vars]. now rewrite <- app_assoc.
      - reflexivity. }
    change (St fs (("present", VFlag true) :: vs ++ vars) c r'') with (St fs bv c r'').
    destruct (sf_array f) as [sa|] eqn:SA; cbn [bind]; [apply GO|].
    assert (arr = None) as AN by (unfold arr_in in AR; rewrite SA in AR; destruct arr; [contradiction|reflexivity]).
    pose proof (no_item pk i f ps fs arr c r'' CA DF SA AN) as NI.
    destruct (item_default im (lower_type I defs n false (sf_ty f))) as [x0|er| |]; cbn [bind]; [apply GO|contradiction|..].
    + destruct (decode_payload E im pk arr i (lowerf f) ps fs c r''); try contradiction; exact Logic.I.
    + destruct (decode_payload E im pk arr i (lowerf f) ps fs c r''); try contradiction; exact Logic.I.
  - pose proof (read_payload_sim sel ps fs wr st en rt i f old false (vs ++ vars) arr D PR CA DF F AF OLD FO (plain_index _ PA) AR pk old c r') as RP.
    unfold target_spot in RP. unfold T at 2 in RP. cbn [app] in RP. rewrite (upd_self _ _ _ _ OLD) in RP.
    eapply sim_weaken; [|exact RP]. intros res s' (iv & -> & _). exists iv. reflexivity.
Qed.
End ReadField.
End Sim.
