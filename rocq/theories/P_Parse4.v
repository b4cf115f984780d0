(** Proofs about the parser (C72): the tokens of an expression are told from those of a type
    and a name. *)
From Coq Require Import ZArith List Bool String Lia.
From Verif Require Import M_Base M_Expr M_Lit M_Visit M_Parse S_Parse P_Parse P_Parse2 P_Parse3.
Import ListNotations.
Local Open Scope list_scope.
Open Scope Z_scope.

(** ** An automaton for expressions *)

(** An operand is wanted, or there is one, or it has just been called; and which brackets
    are open. *)
Inductive phase := Want | Have | Called.
Inductive bracket := FP | FB | FQ.
Definition state : Type := phase * list bracket.
Definition step (s : state) (t : token) : option state :=
  match fst s, t with
  | Want, L _ _ | Want, I _ => Some (Have, snd s)
  | Want, K x =>
      if String.eqb x "(" then Some (Want, FP :: snd s)
      else if String.eqb x "@index" then Some (Have, snd s)
      else if existsb (String.eqb x) ["isset"; "lengthof"; "valueof"; "numbits"; "!"; "-"; "+"; "~"; ">"] then Some s
      else None
  | Have, K x =>
      if existsb (String.eqb x) ["*"; "/"; "%"; "+"; "-"; "<<"; "<"; "<="; ">"; ">="; "=="; "!="; "&"; "^"; "|"; "&&"; "||"; "."]
      then Some (Want, snd s)
      else if String.eqb x "?" then Some (Want, FQ :: snd s)
      else if String.eqb x "[" then Some (Want, FB :: snd s)
      else if String.eqb x "(" then Some (Called, snd s)
      else if String.eqb x ":" then match snd s with FQ :: tl => Some (Want, tl) | _ => None end
      else if String.eqb x ")" then match snd s with FP :: tl => Some (Have, tl) | _ => None end
      else if String.eqb x "]" then match snd s with FB :: tl => Some (Have, tl) | _ => None end
      else if String.eqb x "," then match snd s with FP :: _ => Some (Want, snd s) | _ => None end
      else None
  | Called, K x => if String.eqb x ")" then Some (Have, snd s) else None
  | _, _ => None
  end%string.
Fixpoint scan (s : state) (ts : list token) : option state :=
  match ts with
  | [] => Some s
  | t :: tl => match step s t with Some s' => scan s' tl | None => None end
  end.
Lemma scan_app s a b : scan s (a ++ b) = match scan s a with Some s' => scan s' b | None => None end.
Proof. revert s. induction a as [|t a IH]; intros s; cbn [app scan]; [reflexivity|]. destruct (step s t); auto. Qed.
Lemma scan_expr e : forall stk, scan (Want, stk) (expr_tokens e) = Some (Have, stk).
Proof.
  induction e as [a IHa|a IHa|a IHa i IHi|a IHa x|a IHa b IHb|a IHa|a IHa|a IHa|o a IHa|o a IHa b IHb
                 |c IHc a IHa b IHb|lk s| |s]; intros stk; cbn [expr_tokens];
    repeat (progress (rewrite ?scan_app, ?IHa, ?IHb, ?IHi, ?IHc; cbn)); try reflexivity.
  - destruct o; cbn; rewrite IHa; reflexivity.
  - destruct o; cbn; rewrite IHb; reflexivity.
Qed.
Lemma step_base s stk t s' stk' b : step (s, stk) t = Some (s', stk') -> step (s, stk ++ b) t = Some (s', stk' ++ b).
Proof.
  unfold step. cbn [fst snd]. destruct s, t as [x|j x|x]; try discriminate.
  - repeat (match goal with |- context [if ?c then _ else _] => destruct c end); intros H; try discriminate H;
      injection H as <- <-; reflexivity.
  - intros H. injection H as <- <-; reflexivity.
  - intros H. injection H as <- <-; reflexivity.
  - repeat (match goal with |- context [if ?c then _ else _] => destruct c end);
      try (destruct stk as [|[] tl]); intros H; try discriminate H; injection H as <- <-; reflexivity.
  - destruct (String.eqb x ")"); intros H; try discriminate H; injection H as <- <-; reflexivity.
Qed.
Lemma scan_base ts : forall s stk s' stk' b, scan (s, stk) ts = Some (s', stk') -> scan (s, stk ++ b) ts = Some (s', stk' ++ b).
Proof.
  induction ts as [|t tl IH]; intros s stk s' stk' b; cbn [scan]; [intros H; injection H as <- <-; reflexivity|].
  destruct (step (s, stk) t) as [[s1 stk1]|] eqn:E; [|discriminate]. intros H.
  rewrite (step_base _ _ _ _ _ b E). auto.
Qed.
Lemma scan_prefix s a b z : scan s (a ++ b) = Some z -> exists y, scan s a = Some y.
Proof. rewrite scan_app. destruct (scan s a); [eauto|discriminate]. Qed.

(** ** Where the automaton stops *)

Fixpoint stops_at (s : state) (ts : list token) : option (state * token * list token) :=
  match ts with
  | [] => None
  | t :: tl => match step s t with Some s' => stops_at s' tl | None => Some (s, t, tl) end
  end.
Lemma stops_app s a b s' : scan s a = Some s' -> stops_at s (a ++ b) = stops_at s' b.
Proof.
  revert s. induction a as [|t a IH]; intros s; cbn [app scan stops_at]; [intros H; injection H as <-; reflexivity|].
  destruct (step s t); [auto|discriminate].
Qed.
Lemma stops_in s a b x t y : stops_at s a = Some (x, t, y) -> stops_at s (a ++ b) = Some (x, t, y ++ b).
Proof.
  revert s. induction a as [|u a IH]; intros s; cbn [app stops_at]; [discriminate|].
  destruct (step s u); [auto|]. intros H. injection H as <- <- <-. reflexivity.
Qed.
Lemma stops_expr e t rest : step (Have, []) t = None -> stops_at (Want, []) (expr_tokens e ++ t :: rest) = Some (Have, [], t, rest).
Proof. intros H. rewrite (stops_app _ _ _ _ (scan_expr e [])). cbn [stops_at]. now rewrite H. Qed.

(** It stops at a token that ends no expression. *)
Definition bad (s : state) (ts : list token) : Prop :=
  exists s' t tl, stops_at s ts = Some (s', t, tl) /\ t <> K ":" /\ t <> K ";".
Lemma bad_app s a b s' : scan s a = Some s' -> bad s' b -> bad s (a ++ b).
Proof. intros E (x & t & tl & H & N). exists x, t, tl. now rewrite (stops_app _ _ _ _ E). Qed.
Lemma bad_in s a b : bad s a -> bad s (a ++ b).
Proof. intros (x & t & tl & H & N). exists x, t, (tl ++ b). now rewrite (stops_in _ _ _ _ _ _ H). Qed.
Lemma bad_here s t tl : step s t = None -> t <> K ":" -> t <> K ";" -> bad s (t :: tl).
Proof. intros E A B. exists s, t, tl. cbn [stops_at]. now rewrite E. Qed.
Lemma bad_no_colon e ts rest : bad (Want, []) ts -> ts = expr_tokens e ++ K ":" :: rest -> False.
Proof.
  intros (x & t & tl & H & A & B) ->. rewrite stops_expr in H by reflexivity. injection H as <- <- <-. congruence.
Qed.
Lemma bad_no_semi e ts rest : bad (Want, []) ts -> ts = expr_tokens e ++ K ";" :: rest -> False.
Proof.
  intros (x & t & tl & H & A & B) ->. rewrite stops_expr in H by reflexivity. injection H as <- <- <-. congruence.
Qed.

(** ** Types *)

Lemma dotted_scan ids stk : ids <> [] -> scan (Want, stk) (dotted ids) = Some (Have, stk).
Proof.
  destruct ids as [|a l]; [congruence|]. intros _. rewrite dotted_cons. cbn [scan step fst snd].
  induction l as [|b l IH]; [reflexivity|]. cbn. exact IH.
Qed.
Lemma builtin_stop s : In s (bit_types ++ plain_types) -> step (Want, []) (K s) = None /\ K s <> K ":" /\ K s <> K ";".
Proof.
  intros H. unfold bit_types, plain_types in H. cbn [app In] in H.
  repeat (destruct H as [<-|H]; [split; [reflexivity|split; discriminate]|]). destruct H.
Qed.
Fixpoint tdepth (t : ptype) : nat :=
  match t with PBuiltin _ _ => 0 | PName _ l => S (fold_right (fun a n => Nat.max (tdepth a) n) 0%nat l) end.
(** Where a type stands for an operand, it is one, or an operand is wanted behind it. *)
Lemma type_scan : forall n t, (tdepth t < n)%nat -> type_wf t ->
  bad (Want, []) (type_tokens t)
  \/ (exists ids, t = PName ids [] /\ scan (Want, []) (type_tokens t) = Some (Have, []))
  \/ (template_type t /\ scan (Want, []) (type_tokens t) = Some (Want, [])).
Proof.
  induction n as [|n IH]; intros t D W; [lia|]. destruct t as [s w|ids l].
  - left. assert (M : In s (bit_types ++ plain_types)) by exact (builtin_wf s w W).
    destruct (builtin_stop s M) as (A & B & C). destruct w; apply bad_here; assumption.
  - apply type_wf_name in W as (N & F). destruct l as [|a l].
    + right. left. exists ids. split; [reflexivity|]. now apply dotted_scan.
    + rewrite type_tokens_name, separated_cons. cbn [tdepth fold_right] in D.
      inversion F as [|? ? Wa Wl]; subst.
      assert (Da : (tdepth a < n)%nat) by lia.
      assert (S1 : scan (Want, []) (dotted ids ++ [K "<"]) = Some (Want, [])).
      { rewrite scan_app, dotted_scan by exact N. reflexivity. }
      rewrite (app_assoc (dotted ids)). rewrite <- (app_assoc (type_tokens a)).
      destruct (IH a Da Wa) as [B|[(i2 & Ea & E)|(Ta & E)]].
      * left. eapply bad_app; [exact S1|]. now apply bad_in.
      * destruct l as [|b l].
        -- right. right. split; [unfold template_type; eauto|]. rewrite scan_app, S1, scan_app, E. reflexivity.
        -- left. eapply bad_app; [exact S1|]. eapply bad_app; [exact E|]. cbn [flat_map app].
           apply bad_here; [reflexivity|discriminate|discriminate].
      * destruct l as [|b l].
        -- right. right. split; [unfold template_type; eauto|]. rewrite scan_app, S1, scan_app, E. reflexivity.
        -- left. eapply bad_app; [exact S1|]. eapply bad_app; [exact E|]. cbn [flat_map app].
           apply bad_here; [reflexivity|discriminate|discriminate].
Qed.
Lemma expr_first e rest : exists t tl, expr_tokens e ++ rest = t :: tl /\ t <> K ":" /\ t <> K ";" /\ t <> K ")".
Proof.
  pose proof (expr_starts e rest) as H. destruct (expr_tokens e ++ rest) as [|t tl]; [discriminate|].
  exists t, tl. repeat split; intros ->; cbn in H; discriminate.
Qed.
Lemma arg_first a rest : exists t tl, arg_tokens a ++ rest = t :: tl /\ t <> K ":" /\ t <> K ";" /\ t <> K ")".
Proof.
  destruct a as [s|e]; cbn [arg_tokens]; [|apply expr_first].
  exists (K "explicit"), (I s :: rest). repeat split; discriminate.
Qed.
Lemma args_scan l : l <> [] -> bad (Want, [FP]) (separated arg_tokens l) \/ scan (Want, [FP]) (separated arg_tokens l) = Some (Have, [FP]).
Proof.
  destruct l as [|a l]; [congruence|]. intros _. revert a. induction l as [|b l IH]; intros a.
  - destruct a as [s|e]; cbn [separated arg_tokens]; [left; apply bad_here; [reflexivity|discriminate|discriminate]|].
    right. apply scan_expr.
  - change (separated arg_tokens (a :: b :: l)) with (arg_tokens a ++ [K ","] ++ separated arg_tokens (b :: l)).
    destruct a as [s|e]; cbn [arg_tokens]; [left; apply bad_here; [reflexivity|discriminate|discriminate]|].
    rewrite scan_app, scan_expr.
    destruct (IH b) as [B|S2]; [left; eapply bad_app; [apply scan_expr|]|right; exact S2].
    change ([K ","] ++ separated arg_tokens (b :: l)) with ([K ","] ++ separated arg_tokens (b :: l)).
    eapply bad_app; [|exact B]. reflexivity.
Qed.
(** The same for a type with what stands behind it, and a name. *)
Lemma inst_scan t x rest : inst_shape t ->
  bad (Want, []) (inst_tokens t ++ I x :: rest)
  \/ scan (Want, []) (inst_tokens t ++ [I x]) = Some (Have, [])
     /\ ((template_type (pi_type t) /\ pi_suffix t = PNone) \/ exists e ids, pi_suffix t = PLength e /\ pi_type t = PName ids []).
Proof.
  intros (W & N). unfold inst_tokens. destruct t as [t sf]. cbn [pi_type pi_suffix] in *. rewrite <- !app_assoc.
  destruct (type_scan (S (tdepth t)) t (Nat.lt_succ_diag_r _) W) as [B|[(ids & E & S1)|(T & S1)]].
  - left. now apply bad_in.
  - destruct sf as [|l|e]; cbn [suffix_tokens app].
    + left. eapply bad_app; [exact S1|]. apply bad_here; [reflexivity|discriminate|discriminate].
    + left. eapply bad_app; [exact S1|]. destruct l as [|a l]; [congruence|]. rewrite separated_cons. rewrite <- !app_assoc.
      destruct (arg_first a (flat_map (fun x => K "," :: arg_tokens x) l ++ [K ")"] ++ I x :: rest)) as (u & tl & E1 & A & B & C).
      rewrite E1. change (K "(" :: u :: tl) with ([K "("] ++ u :: tl). eapply bad_app; [reflexivity|].
      apply bad_here; [|exact A|exact B]. unfold step. cbn [fst]. destruct u as [y|j y|y]; try reflexivity.
      destruct (String.eqb_spec y ")"); [subst; congruence|reflexivity].
    + right. split; [|right; eauto]. rewrite scan_app, S1. cbn [app]. change (K "<" :: ?a) with ([K "<"] ++ a).
      cbn. rewrite <- app_assoc, scan_app, scan_expr. reflexivity.
  - destruct sf as [|l|e]; cbn [suffix_tokens app].
    + right. split; [|left; auto]. rewrite scan_app, S1. reflexivity.
    + left. eapply bad_app; [exact S1|]. destruct (args_scan l N) as [B|S2].
      * change (K "(" :: ?a) with ([K "("] ++ a). rewrite <- app_assoc. eapply (bad_app _ [K "("]); [reflexivity|].
        now apply bad_in.
      * rewrite <- app_assoc. eapply (bad_app _ [K "("]); [reflexivity|]. eapply bad_app; [exact S2|].
        eapply (bad_app _ [K ")"]); [reflexivity|]. apply bad_here; [reflexivity|discriminate|discriminate].
    + left. eapply bad_app; [exact S1|]. apply bad_here; [reflexivity|discriminate|discriminate].
Qed.
Lemma range_scan r : (forall rest, bad (Have, []) (range_tokens r ++ rest)) \/ scan (Have, []) (range_tokens r) = Some (Have, []).
Proof.
  destruct r as [[e|]|]; cbn [range_tokens].
  - right. cbn. rewrite scan_app, scan_expr. reflexivity.
  - left. intros rest. apply (bad_app _ [K "["] _ (Want, [FB])); [reflexivity|].
    apply bad_here; [reflexivity|discriminate|discriminate].
  - right. reflexivity.
Qed.

(** ** Two consequences *)

(** Behind a field's type stand its name, an array range and one of these. *)
Definition ends (ts : list token) : Prop :=
  exists r s rest, ts = range_tokens r ++ K s :: rest /\ In s ["="; "if"; ":"; ";"; "{"; "sql"]%string.

(** The bracket that closes a length is no operator. *)
Lemma inside e c u v : c = I u :: K "[" :: v -> (exists w, expr_tokens e = v ++ w) -> scan (Want, []) c = Some (Have, []) -> False.
Proof.
  intros -> (w & E) H. cbn in H. pose proof (scan_expr e []) as S1. rewrite E in S1.
  apply scan_prefix in S1 as ([s1 stk1] & S1). apply (scan_base _ _ _ _ _ [FB]) in S1. cbn [app] in S1.
  rewrite S1 in H. injection H as _ H. destruct stk1; discriminate.
Qed.
Lemma no_gt x ts t rest : ends ts -> I x :: ts = expr_tokens t ++ K ">" :: rest -> False.
Proof.
  intros (r & s & rest2 & -> & M) E. change (I x :: range_tokens r ++ K s :: rest2) with ((I x :: range_tokens r) ++ K s :: rest2) in E.
  pose proof (scan_expr t []) as SC. symmetry in E. apply app_eq_app in E as (l & [(E1 & E2)|(E1 & E2)]).
  - (* the expression goes beyond the range *)
    rewrite E1, scan_app in SC. destruct (scan (Want, []) (I x :: range_tokens r)) as [s1|] eqn:S1; [|discriminate].
    assert (s1 = (Have, [])) as ->.
    { destruct r as [[e|]|]; cbn in S1; [|discriminate|]; [|congruence].
      rewrite scan_app, scan_expr in S1. cbn in S1. congruence. }
    destruct l as [|u l].
    + cbn [app] in E2. injection E2 as -> _. cbn in M. intuition discriminate.
    + cbn [app] in E2. injection E2 as <- _. cbn [In] in M.
      destruct M as [<-|[<-|[<-|[<-|[<-|[<-|[]]]]]]]; discriminate SC.
  - (* it ends within *)
    destruct l as [|u l].
    { cbn [app] in E2. injection E2 as <- _. cbn in M. intuition discriminate. }
    cbn [app] in E2. injection E2 as <- E2. destruct (expr_tokens t) as [|v c] eqn:ET; [destruct (expr_not_nil t ET)|].
    cbn [app] in E1. injection E1 as <- E1. destruct r as [[e|]|]; cbn [range_tokens app] in E1.
    + destruct c as [|v c]; [discriminate E1|]. cbn [app] in E1. injection E1 as <- E1.
      symmetry in E1. apply app_eq_app in E1 as (l2 & [(X & Y)|(X & Y)]).
      * destruct l2 as [|y l2]; [|cbn [app] in Y; injection Y as _ Y; destruct l2; discriminate Y].
        discriminate Y.
      * eapply inside; [reflexivity| |exact SC]. eauto.
    + destruct c as [|v c]; [discriminate E1|]. cbn [app] in E1. injection E1 as <- E1.
      destruct c as [|v c]; [discriminate E1|]. cbn [app] in E1. injection E1 as <- E1. destruct c; discriminate E1.
    + destruct c; discriminate E1.
Qed.

(** A field without an offset is not one with an offset. *)
Definition tail_rest (f : pfield) : list token :=
  behind "=" (pf_init f) ++ behind "if" (pf_clause f) ++ behind ":" (pf_constraint f) ++ [K ";"].
Lemma tail_starts f rest : exists s rest', tail_rest f ++ rest = K s :: rest' /\ In s ["="; "if"; ":"; ";"; "{"; "sql"]%string.
Proof.
  unfold tail_rest. destruct (pf_init f), (pf_clause f), (pf_constraint f); cbn [behind app]; eexists _, _; (split; [reflexivity|cbn; tauto]).
Qed.
Lemma tail_split f rest : tail_tokens f ++ rest =
  word (pf_extend f) "extend" ++ word (pf_optional f) "optional"
  ++ word (pm_packed (pf_member f)) "packed" ++ word (pm_implicit (pf_member f)) "implicit"
  ++ inst_tokens (pm_inst (pf_member f)) ++ [I (pm_name (pf_member f))] ++ range_tokens (pm_range (pf_member f)) ++ tail_rest f ++ rest.
Proof. unfold tail_tokens, member_tokens, tail_rest. napp. reflexivity. Qed.
Lemma word_bad b s rest : In s ["extend"; "optional"; "packed"; "implicit"]%string ->
  bad (Want, []) (word b s ++ rest) \/ word b s = [].
Proof.
  intros M. destruct b; [left|right; reflexivity]. cbn [In word app] in *.
  destruct M as [<-|[<-|[<-|[<-|[]]]]]; (apply bad_here; [reflexivity|discriminate|discriminate]).
Qed.
(** Either the automaton gets stuck within, or the tokens up to the range form an expression
    and only the type shows what they are. *)
Lemma tail_scan f rest : inst_shape (pm_inst (pf_member f)) ->
  bad (Want, []) (tail_tokens f ++ rest)
  \/ exists P, tail_tokens f ++ rest = P ++ tail_rest f ++ rest /\ scan (Want, []) P = Some (Have, [])
     /\ P = inst_tokens (pm_inst (pf_member f)) ++ [I (pm_name (pf_member f))] ++ range_tokens (pm_range (pf_member f))
     /\ ((template_type (pi_type (pm_inst (pf_member f))) /\ pi_suffix (pm_inst (pf_member f)) = PNone)
         \/ exists e ids, pi_suffix (pm_inst (pf_member f)) = PLength e /\ pi_type (pm_inst (pf_member f)) = PName ids []).
Proof.
  intros W. rewrite tail_split.
  repeat (match goal with |- bad _ (word ?b ?s ++ ?r) \/ _ =>
    destruct (word_bad b s r) as [B|E]; [cbn; tauto|left; exact B|rewrite E; cbn [app]; clear E] end).
  change (I (pm_name (pf_member f)) :: ?a) with ([I (pm_name (pf_member f))] ++ a).
  match goal with |- bad _ (?a ++ [I ?x] ++ ?r) \/ _ =>
    destruct (inst_scan (pm_inst (pf_member f)) x r W) as [B|(S1 & T)]; [left; exact B|] end.
  destruct (range_scan (pm_range (pf_member f))) as [B|S2].
  - left. rewrite app_assoc. eapply bad_app; [exact S1|]. apply B.
  - right. eexists. split; [|split; [|split; [reflexivity|exact T]]].
    + rewrite <- !app_assoc. reflexivity.
    + rewrite app_assoc, scan_app, S1. exact S2.
Qed.

Lemma not_offset f e rest g rest2 : inst_wf (pm_inst (pf_member f)) ->
  inst_shape (pm_inst (pf_member g)) ->
  (forall c, pf_constraint f = Some c -> template_type (pi_type (pm_inst (pf_member f))) -> ~ reads_as_member c) ->
  tail_tokens f ++ rest = expr_tokens e ++ K ":" :: tail_tokens g ++ rest2 -> False.
Proof.
  intros (W & W2) Wg HC E.
  assert (SH : inst_shape (pm_inst (pf_member f))).
  { split; [exact W|]. destruct (pi_suffix _); auto. tauto. }
  destruct (tail_scan f rest SH) as [B|(P & E1 & S1 & _ & T)]; [eapply bad_no_colon; eauto|].
  assert (TT : template_type (pi_type (pm_inst (pf_member f)))).
  { destruct T as [(T & _)|(e2 & ids & X & Y)]; [exact T|]. rewrite X in W2. destruct W2 as (_ & s & w & W2). congruence. }
  (* the colon is that of the constraint *)
  assert (X : stops_at (Want, []) (tail_tokens f ++ rest) = Some (Have, [], K ":", tail_tokens g ++ rest2)).
  { rewrite E. apply stops_expr. reflexivity. }
  rewrite E1, (stops_app _ _ _ _ S1) in X. unfold tail_rest in X.
  destruct (pf_init f); [discriminate X|]. destruct (pf_clause f); [discriminate X|].
  destruct (pf_constraint f) as [c|] eqn:EC; [|discriminate X]. cbn in X. injection X as X.
  rewrite <- app_assoc in X. cbn [app] in X.
  (* and the constraint ends with the semicolon of the other reading *)
  destruct (tail_scan g rest2 Wg) as [B|(P2 & E2 & S2 & EP & _)].
  { eapply bad_no_semi; [exact B|]. symmetry. exact X. }
  assert (Y : stops_at (Want, []) (tail_tokens g ++ rest2) = Some (Have, [], K ";", rest)).
  { rewrite <- X. apply stops_expr. reflexivity. }
  rewrite E2, (stops_app _ _ _ _ S2) in Y. rewrite E2 in X. unfold tail_rest in X, Y.
  destruct (pf_init g); [discriminate Y|]. destruct (pf_clause g); [discriminate Y|].
  destruct (pf_constraint g); [discriminate Y|]. cbn in Y. injection Y as Y. subst rest2. cbn [behind app] in X.
  apply app_inv_tail in X. apply (HC c eq_refl TT). unfold reads_as_member. eexists _, _, _. rewrite X. exact EP.
Qed.
