(** Proofs about the parser (C72): every grouped expression is read back. *)
From Coq Require Import ZArith List Bool String Lia.
From Verif Require Import M_Base M_Expr M_Lit M_Visit M_Parse S_Parse P_Parse.
Import ListNotations.
Local Open Scope list_scope.
Open Scope Z_scope.

(** ** The operator behind an expression *)

Fixpoint starts (ss : list string) (ts : list token) : bool :=
  match ss, ts with
  | [], _ => true
  | s :: tl, K x :: r => String.eqb x s && starts tl r
  | _, _ => false
  end.
Definition alts : list (Z * list string) :=
  map (fun b => match b with (prec, _, ss, _) => (prec, ss) end) binaries
  ++ [(4, ["?"]); (22, ["("; ")"]); (21, ["["]); (20, ["."])]%string.
(** An operator of at least precedence [q] follows. *)
Definition open_at (q : Z) (ts : list token) : bool :=
  existsb (fun a => (q <=? fst a) && starts (snd a) ts) alts.

Lemma open_mono q q' ts : q <= q' -> open_at q ts = false -> open_at q' ts = false.
Proof.
  unfold open_at. intros L H. destruct (existsb (fun a => (q' <=? fst a) && _) alts) eqn:E; [|reflexivity].
  apply existsb_exists in E as (a & M & E). apply andb_true_iff in E as (E1 & E2). apply Z.leb_le in E1.
  rewrite <- H. symmetry. apply existsb_exists. exists a. split; [exact M|].
  rewrite E2, andb_true_r. apply Z.leb_le. lia.
Qed.

Lemma toks_miss {R A} ss (f : unit -> parser R A) k ts : starts ss ts = false -> pbind (toks ss) f k ts = Fails.
Proof.
  revert k ts. induction ss as [|s tl IH]; intros k ts H; [discriminate|].
  unfold pbind. cbn [toks]. unfold pbind, tok. destruct ts as [|[x|j x|x] r]; try reflexivity.
  cbn [starts] in H. destruct (String.eqb x s); [|reflexivity]. cbn [andb] in H. exact (IH k r H).
Qed.
Lemma toks_hit {R A} ss (f : unit -> parser R A) k ts : pbind (toks ss) f k (map K ss ++ ts) = f tt k ts.
Proof.
  revert k ts. induction ss as [|s tl IH]; intros k ts; [reflexivity|].
  unfold pbind. cbn [toks map app]. unfold pbind, tok. rewrite String.eqb_refl. exact (IH k ts).
Qed.
Lemma first_fails {R A} (l : list (parser R A)) k ts : Forall (fun p => p k ts = Fails) l -> first_of l k ts = Fails.
Proof. induction 1 as [|p l H _ IH]; cbn [first_of]; [reflexivity|]. unfold predict. now rewrite H. Qed.
Lemma first_hit {R A} (l1 : list (parser R A)) p l2 k ts r :
  Forall (fun p => p k ts = Fails) l1 -> p k ts = Parsed r -> first_of (l1 ++ p :: l2) k ts = Parsed r.
Proof.
  induction 1 as [|q l H _ IH]; intros E; cbn [first_of app]; unfold predict; [now rewrite E|].
  rewrite H. auto.
Qed.

(** A postfix operator as the model writes it. *)
Lemma tok_toks {R A} s (f : unit -> parser R A) k ts : pbind (tok s) f k ts = pbind (toks [s]) f k ts.
Proof. unfold pbind. cbn [toks]. unfold pbind, pret, tok. destruct ts as [|[]]; reflexivity. Qed.

Lemma suffix_stops {R} (sub : Z -> parser R pexpr) again q e k ts :
  open_at q ts = false -> suffix sub again q e k ts = k e ts.
Proof.
  intros H. unfold open_at, alts in H. rewrite existsb_app in H. apply orb_false_iff in H as (H1 & H2).
  unfold suffix. unfold predict at 1. unfold predict at 1.
  rewrite first_fails.
  2:{ apply Forall_forall. intros p M. apply in_map_iff in M as ([[[prec q'] ss] o] & <- & M).
      unfold precpred. destruct (q <=? prec) eqn:E; [|reflexivity]. apply toks_miss.
      destruct (starts ss ts) eqn:S; [|reflexivity]. exfalso.
      assert (X : existsb (fun a : Z * list string => (q <=? fst a) && starts (snd a) ts)
                    (map (fun b => match b with (prec, _, ss, _) => (prec, ss) end) binaries) = true).
      { apply existsb_exists. exists (prec, ss). split; [|cbn [fst snd]; now rewrite E, S].
        apply in_map_iff. exists (prec, q', ss, o). auto. }
      congruence. }
  cbn [existsb fst snd] in H2. rewrite !orb_false_iff in H2. destruct H2 as (A & B & C & D & _).
  rewrite first_fails; [reflexivity|].
  repeat constructor; unfold precpred;
    (match goal with |- (if ?b then _ else _) _ _ = _ => destruct b; [|reflexivity] end); cbn [andb] in *.
  - rewrite tok_toks. now apply toks_miss.
  - pose proof (@toks_miss R pexpr ["("; ")"]%string (fun _ => again (PCall e)) k ts B) as X.
    unfold pbind, toks, pret, tok in *. cbn in X. unfold pbind, tok, pret in X.
    destruct ts as [|[x|j x|x] r]; try reflexivity. destruct (String.eqb x "("); [|reflexivity].
    destruct r as [|[y|j y|y] r']; try reflexivity. destruct (String.eqb y ")"); [exact X|reflexivity].
  - rewrite tok_toks. now apply toks_miss.
  - rewrite tok_toks. now apply toks_miss.
Qed.

(** No reading goes on behind a closing angle bracket. *)
Definition dead {R} (k : pexpr -> list token -> outcome R) (ts : list token) : Prop :=
  (forall e t rest r, ts = expr_tokens t ++ rest -> k e rest <> Parsed r)
  /\ (forall e rest, (List.length rest <= List.length ts)%nat -> k e rest <> Fuel).
Definition follow {R} (q : Z) (k : pexpr -> list token -> outcome R) (rest : list token) : Prop :=
  open_at q rest = false
  \/ exists x rest', rest = K ">" :: I x :: rest' /\ dead k (I x :: rest').

Lemma follow_mono {R} q q' (k : pexpr -> list token -> outcome R) ts : q <= q' -> follow q k ts -> follow q' k ts.
Proof. intros L [H|H]; [left; eapply open_mono; eauto|right; exact H]. Qed.
Lemma dead_again {R} m p F (k : pexpr -> list token -> outcome R) ts : dead k ts -> (List.length ts < m)%nat ->
  dead (fun b => operators m p (F b) k) ts.
Proof.
  intros (D1 & D2) L. split.
  - intros e t rest r -> H. apply operators_extend in H as (g & x & rest2 & -> & G & H).
    apply (D1 (g (F e)) (g t) rest2 r); [|exact H]. now rewrite G, <- app_assoc.
  - intros e rest E. apply operators_quiet; [lia|]. intros a rest2 X. apply D2. lia.
Qed.
Lemma follow_again {R} q m p F (k : pexpr -> list token -> outcome R) ts : follow q k ts -> (List.length ts <= m)%nat ->
  follow q (fun b => operators m p (F b) k) ts.
Proof.
  intros [H|(x & rest & -> & D)] L; [left; exact H|right]. exists x, rest. split; [reflexivity|].
  apply dead_again; [exact D|]. cbn in *. lia.
Qed.

Lemma follow_stops {R} n q e (k : pexpr -> list token -> outcome R) ts : follow q k ts -> (List.length ts < n)%nat ->
  operators n q e k ts = k e ts.
Proof.
  intros F L. destruct n as [|m]; [lia|]. cbn [operators]. destruct F as [F|(x & rest & -> & D)].
  { now apply suffix_stops. }
  unfold suffix. unfold predict at 1. unfold predict at 1.
  rewrite first_fails.
  2:{ apply Forall_forall. intros p M. apply in_map_iff in M as ([[[prec q'] ss] o] & <- & M).
      unfold precpred. destruct (q <=? prec) eqn:E; [|reflexivity].
      destruct (starts ss (K ">" :: I x :: rest)) eqn:S; [|now apply toks_miss].
      assert (X : ss = [">"]%string).
      { unfold binaries in M. cbn [In] in M.
        repeat (destruct M as [M|M]; [injection M as <- <- <- <-; first [discriminate S|reflexivity]|]). destruct M. }
      subst ss. change (K ">" :: I x :: rest) with (map K [">"%string] ++ (I x :: rest)). rewrite toks_hit.
      unfold pbind.
      destruct (dead_again m q (PBin o e) k (I x :: rest) D) as (D1 & D2); [cbn in *; lia|].
      destruct (expression m q' (fun a => operators m q (PBin o e a) k) (I x :: rest)) eqn:T; [|reflexivity|].
      - apply expression_reads in T as (t & rest2 & T1 & T2). exfalso. exact (D1 t t rest2 _ T1 T2).
      - exfalso. revert T. apply expression_quiet; [cbn in *; lia|]. intros a rest2 Y. apply D2. lia. }
  rewrite first_fails; [reflexivity|].
  repeat constructor; unfold precpred;
    (match goal with |- (if ?b then _ else _) _ _ = _ => destruct b; reflexivity end).
Qed.

(** ** Starts of expressions *)

Lemma la_expr_app ts rest : ts <> [] -> la_expr (ts ++ rest) = la_expr ts.
Proof. destruct ts; [congruence|reflexivity]. Qed.
Lemma expr_not_nil e : expr_tokens e <> [].
Proof.
  induction e; cbn [expr_tokens]; try discriminate;
    try (intros H; apply app_eq_nil in H as (H & _); congruence).
  destruct o; discriminate.
Qed.
Lemma expr_starts e rest : la_expr (expr_tokens e ++ rest) = true.
Proof.
  rewrite la_expr_app by apply expr_not_nil.
  induction e; try reflexivity; cbn [expr_tokens];
    try (rewrite la_expr_app by apply expr_not_nil; assumption).
  destruct o; reflexivity.
Qed.
Lemma not_gt ts : la_expr ts = true -> starts [">"%string] ts = false.
Proof.
  destruct ts as [|[s|j s|s] tl]; try reflexivity. unfold la_expr, la_in, starts. intros H.
  destruct (String.eqb_spec s ">"); [subst; discriminate|reflexivity].
Qed.

(** ** The loop finds the operator *)

Definition prec (o : binop) : Z := 16 - Z.of_nat (binop_level o).

Lemma prec_row o ts : la_expr ts = true -> exists l1 l2 ss,
  binaries = l1 ++ (prec o, prec o + 1, ss, o) :: l2 /\ map K ss = binop_tokens o
  /\ Forall (fun b => match b with (_, _, ss, _) => starts ss (binop_tokens o ++ ts) = false end) l1.
Proof.
  intros H. pose proof (not_gt ts H) as G. cbn [starts] in G.
  destruct o.
  1:{ exists (firstn 0 binaries), (skipn 1 binaries). eexists. repeat split; repeat constructor. }
  1:{ exists (firstn 1 binaries), (skipn 2 binaries). eexists. repeat split; repeat constructor. }
  1:{ exists (firstn 2 binaries), (skipn 3 binaries). eexists. repeat split; repeat constructor. }
  1:{ exists (firstn 3 binaries), (skipn 4 binaries). eexists. repeat split; repeat constructor. }
  1:{ exists (firstn 4 binaries), (skipn 5 binaries). eexists. repeat split; repeat constructor. }
  1:{ exists (firstn 5 binaries), (skipn 6 binaries). eexists. repeat split; repeat constructor. }
  1:{ exists (firstn 6 binaries), (skipn 7 binaries). eexists. repeat split; repeat constructor. }
  1:{ exists (firstn 7 binaries), (skipn 8 binaries). eexists. repeat split; repeat constructor. }
  1:{ exists (firstn 8 binaries), (skipn 9 binaries). eexists. repeat split; repeat constructor. }
  1:{ exists (firstn 9 binaries), (skipn 10 binaries). eexists.
      split; [reflexivity|]. split; [reflexivity|].
      cbn [firstn binaries]. repeat (constructor; [first [reflexivity|exact G]|]). constructor. }
  1:{ exists (firstn 10 binaries), (skipn 11 binaries). eexists. repeat split; repeat constructor. }
  1:{ exists (firstn 11 binaries), (skipn 12 binaries). eexists. repeat split; repeat constructor. }
  1:{ exists (firstn 12 binaries), (skipn 13 binaries). eexists. repeat split; repeat constructor. }
  1:{ exists (firstn 13 binaries), (skipn 14 binaries). eexists. repeat split; repeat constructor. }
  1:{ exists (firstn 14 binaries), (skipn 15 binaries). eexists. repeat split; repeat constructor. }
  1:{ exists (firstn 15 binaries), (skipn 16 binaries). eexists. repeat split; repeat constructor. }
  1:{ exists (firstn 16 binaries), (skipn 17 binaries). eexists. repeat split; repeat constructor. }
  1:{ exists (firstn 17 binaries), (skipn 18 binaries). eexists. repeat split; repeat constructor. }
Qed.

Lemma suffix_binary {R} (sub : Z -> parser R pexpr) again p e k o ts r :
  p <= prec o -> la_expr ts = true ->
  sub (prec o + 1) (fun x => again (PBin o e x) k) ts = Parsed r ->
  suffix sub again p e k (binop_tokens o ++ ts) = Parsed r.
Proof.
  intros L H E. destruct (prec_row o ts H) as (l1 & l2 & ss & EB & ES & F).
  unfold suffix. unfold predict at 1. unfold predict at 1. rewrite EB, map_app. cbn [map].
  match goal with |- context [first_of (?a ++ ?b :: ?c) k ?t] =>
    assert (X : first_of (a ++ b :: c) k t = Parsed r); [apply first_hit|rewrite X; reflexivity] end.
  - apply Forall_forall. intros q M. apply in_map_iff in M as ([[[pr q'] ss'] o'] & <- & M).
    unfold precpred. destruct (p <=? pr); [|reflexivity]. apply toks_miss.
    exact (proj1 (Forall_forall _ _) F _ M).
  - unfold precpred. rewrite (proj2 (Z.leb_le p (prec o)) L). rewrite <- ES, toks_hit. exact E.
Qed.

Lemma open_op q o ts : prec o < q -> la_expr ts = true -> open_at q (binop_tokens o ++ ts) = false.
Proof.
  intros L H. pose proof (not_gt ts H) as G. cbn [starts] in G.
  unfold open_at. destruct (existsb _ alts) eqn:E; [|reflexivity]. exfalso.
  apply existsb_exists in E as (a & M & E). apply andb_true_iff in E as (E1 & E2). apply Z.leb_le in E1.
  unfold prec in L.
  destruct o; cbn [binop_tokens binop_level app] in *; unfold alts, binaries in M; cbn [map app In] in M;
    repeat (destruct M as [M|M]; [subst a; cbn [fst snd] in *; try lia; cbn [starts] in E2;
                                    first [discriminate E2|rewrite G in E2; discriminate E2]|]); destruct M.
Qed.

(** ** Reading back *)

(** The precedence an operator must have to be taken into the expression. *)
Definition opn (e : pexpr) : Z :=
  match e with
  | PUn _ _ => 15
  | PBin o _ _ => prec o + 1
  | PTern _ _ _ => 4
  | _ => 23
  end.
Definition admits (p : Z) (e : pexpr) : Prop :=
  0 <= p <= 15 /\ match e with PBin o _ _ => p <= prec o | PTern _ _ _ => p <= 4 | _ => True end.

Definition back {R} (e : pexpr) : Prop := forall n p (k : pexpr -> list token -> outcome R) rest r,
  admits p e -> (List.length (expr_tokens e ++ rest) < n)%nat -> follow (opn e) k rest ->
  (forall m, (List.length rest < m)%nat -> operators m p e k rest = Parsed r) ->
  expression n p k (expr_tokens e ++ rest) = Parsed r.

Lemma prec_range o : 5 <= prec o <= 14.
Proof. destruct o; cbv; split; congruence. Qed.
Lemma admits_0 e : admits 0 e.
Proof. split; [lia|]. destruct e; try exact Logic.I; [pose proof (prec_range o); change (0 <= prec o); lia|lia]. Qed.
Lemma opn_pos e : 4 <= opn e.
Proof. destruct e; cbn [opn]; try lia. pose proof (prec_range o). lia. Qed.

(** Behind [s] no operator follows. *)
Definition closer (s : string) : Prop := forall q ts, open_at q (K s :: ts) = false.
Ltac closer := intros q ts; unfold open_at; cbn; rewrite ?andb_false_r; reflexivity.
Lemma closer_paren : closer ")". Proof. closer. Qed.
Lemma closer_bracket : closer "]". Proof. closer. Qed.
Lemma closer_comma : closer ",". Proof. closer. Qed.
Lemma closer_colon : closer ":". Proof. closer. Qed.
Lemma closer_semi : closer ";". Proof. closer. Qed.
Lemma closer_brace : closer "{". Proof. closer. Qed.
Lemma closer_rbrace : closer "}". Proof. closer. Qed.
Lemma closer_if : closer "if". Proof. closer. Qed.
Global Hint Resolve closer_paren closer_bracket closer_comma closer_colon closer_semi closer_brace closer_rbrace closer_if : closers.

Lemma back_closed {R} e s n (k : pexpr -> list token -> outcome R) rest r :
  back e (R := R) -> closer s -> (List.length (expr_tokens e ++ K s :: rest) < n)%nat ->
  k e (K s :: rest) = Parsed r -> expression n 0 k (expr_tokens e ++ K s :: rest) = Parsed r.
Proof.
  intros B C L E. apply B; [apply admits_0|exact L|left; apply C|].
  intros m M. rewrite follow_stops; [exact E|left; apply C|exact M].
Qed.

Ltac len := repeat (progress (rewrite ?app_length in *; cbn [List.length app] in *)); lia.


Lemma binaries_miss {R} (sub : Z -> parser R pexpr) (again : pexpr -> parser R pexpr) p e k s ts : In s ["?"; "("; "["; "."]%string ->
  first_of (map (fun b => match b with (prec, q, ss, o) =>
     precpred prec p (toks ss ;; let%p x := sub q in again (PBin o e x)) end) binaries) k (K s :: ts) = Fails.
Proof.
  intros HS. apply first_fails. apply Forall_forall. intros q M.
  apply in_map_iff in M as ([[[pr q'] ss] o] & <- & M).
  unfold precpred. destruct (p <=? pr); [|reflexivity]. apply toks_miss.
  unfold binaries in M. cbn [In] in M, HS.
  destruct HS as [<-|[<-|[<-|[<-|[]]]]];
    repeat (destruct M as [M|M]; [injection M as <- <- <- <-; reflexivity|]); destruct M.
Qed.
Ltac post H :=
  unfold suffix; unfold predict at 1; unfold predict at 1; rewrite binaries_miss by (cbn; tauto);
  cbn [first_of]; unfold predict, precpred;
  repeat match goal with |- context [?p <=? ?c] => destruct (Z.leb_spec p c); [|try lia] end;
  unfold pbind, tok, pfail, ident; cbn [String.eqb Ascii.eqb Bool.eqb]; try (rewrite H; reflexivity).
Lemma suffix_tern {R} (sub : Z -> parser R pexpr) again p e k ts r : p <= 4 ->
  sub 0 (fun x => pbind (tok ":") (fun _ => let%p y := sub 4 in again (PTern e x y)) k) ts = Parsed r ->
  suffix sub again p e k (K "?" :: ts) = Parsed r.
Proof. intros L H. unfold pbind, tok in H. post H. Qed.
Lemma suffix_call {R} (sub : Z -> parser R pexpr) again p e k ts r : p <= 15 ->
  again (PCall e) k ts = Parsed r -> suffix sub again p e k (K "(" :: K ")" :: ts) = Parsed r.
Proof. intros L H. post H. Qed.
Lemma suffix_elem {R} (sub : Z -> parser R pexpr) again p e k ts r : p <= 15 ->
  sub 0 (fun x => pbind (tok "]") (fun _ => again (PElem e x)) k) ts = Parsed r ->
  suffix sub again p e k (K "[" :: ts) = Parsed r.
Proof. intros L H. unfold pbind, tok in H. post H. Qed.
Lemma suffix_dot {R} (sub : Z -> parser R pexpr) again p e k m ts r : p <= 15 ->
  again (PDot e m) k ts = Parsed r -> suffix sub again p e k (K "." :: I m :: ts) = Parsed r.
Proof. intros L H. post H. Qed.

(** What stands behind a postfix expression. *)
Lemma level0_admits p e : 0 <= p <= 15 -> level e = 0%nat -> admits p e.
Proof. intros A E. split; [exact A|]. destruct e; try exact Logic.I; [destruct o; discriminate|discriminate]. Qed.
Lemma level0_opn e : level e = 0%nat -> opn e = 23.
Proof. destruct e; try reflexivity; [discriminate|destruct o; discriminate|discriminate]. Qed.
Lemma post_follow {R} e (k : pexpr -> list token -> outcome R) s ts :
  level e = 0%nat -> In s ["("; "["; "."]%string -> follow (opn e) k (K s :: ts).
Proof.
  intros E M. left. rewrite (level0_opn e E). cbn [In] in M. destruct M as [<-|[<-|[<-|[]]]]; reflexivity.
Qed.
Lemma opn_level e : (2 <= level e)%nat -> (level e < 12)%nat -> opn e = 17 - Z.of_nat (level e).
Proof.
  destruct e; cbn [level opn]; try lia. unfold prec. lia.
Qed.
Lemma binop_level_range o : (2 <= binop_level o <= 11)%nat.
Proof. destruct o; cbn; lia. Qed.
Lemma opn_above e l : (level e <= l)%nat -> (2 <= l <= 11)%nat -> 16 - Z.of_nat l < opn e.
Proof.
  intros A B. destruct e; cbn [level opn] in *; unfold prec; try lia.
Qed.
Lemma opn_right e l : (level e < l)%nat -> (2 <= l <= 11)%nat -> 17 - Z.of_nat l <= opn e.
Proof. intros A B. destruct e; cbn [level opn] in *; unfold prec; try lia. Qed.
Lemma admits_left p e l : 0 <= p <= 15 -> (level e <= l)%nat -> (2 <= l <= 11)%nat -> p <= 16 - Z.of_nat l -> admits p e.
Proof. intros A B C D. split; [exact A|]. destruct e; cbn [level] in *; unfold prec; try exact Logic.I; lia. Qed.

Ltac word := unfold prefix, pbind, pret, tok; cbn [String.eqb Ascii.eqb Bool.eqb].

Lemma reads_back {R} : forall e, grouped e -> @back R e.
Proof.
  induction e as [a IHa|a IHa|a IHa i IHi|a IHa x|a IHa b IHb|a IHa|a IHa|a IHa|o a IHa|o a IHa b IHb
                 |c IHc a IHa b IHb|lk s| |s];
    cbn [grouped]; intros G n p k rest r A L F H; (destruct n as [|m]; [lia|]);
    destruct A as (A & A').
  - cbn [expr_tokens app] in *. rewrite <- app_assoc in *. cbn [app] in *. cbn [expression]. word.
    apply back_closed; [auto|auto with closers|len|]. word. apply H. len.
  - destruct G as (G1 & G). cbn [expr_tokens app] in *. rewrite <- app_assoc in *. cbn [app] in *.
    apply IHa; [exact G|now apply level0_admits|exact L|apply post_follow; [exact G1|cbn; tauto]|].
    intros m' M. destruct m' as [|m']; [lia|]. cbn [operators]. apply suffix_call; [lia|]. apply H. len.
  - destruct G as (G1 & G & Gi). cbn [expr_tokens app] in *. rewrite <- app_assoc in *. cbn [app] in *.
    rewrite <- app_assoc in *. cbn [app] in *.
    apply IHa; [exact G|now apply level0_admits|exact L|apply post_follow; [exact G1|cbn; tauto]|].
    intros m' M. destruct m' as [|m']; [lia|]. cbn [operators]. apply suffix_elem; [lia|].
    apply back_closed; [auto|auto with closers|len|]. word. apply H. len.
  - destruct G as (G1 & G). cbn [expr_tokens app] in *. rewrite <- app_assoc in *. cbn [app] in *.
    apply IHa; [exact G|now apply level0_admits|exact L|apply post_follow; [exact G1|cbn; tauto]|].
    intros m' M. destruct m' as [|m']; [lia|]. cbn [operators]. apply suffix_dot; [lia|]. apply H. len.
  - destruct G as (G1 & G2). cbn [expr_tokens app] in *. rewrite <- app_assoc in *. cbn [app] in *.
    rewrite <- app_assoc in *. cbn [app] in *. cbn [expression]. word.
    apply back_closed; [auto|auto with closers|len|]. word.
    apply back_closed; [auto|auto with closers|len|]. word. apply H. len.
  - cbn [expr_tokens app] in *. rewrite <- app_assoc in *. cbn [app] in *. cbn [expression]. word.
    apply back_closed; [auto|auto with closers|len|]. word. apply H. len.
  - cbn [expr_tokens app] in *. rewrite <- app_assoc in *. cbn [app] in *. cbn [expression]. word.
    apply back_closed; [auto|auto with closers|len|]. word. apply H. len.
  - cbn [expr_tokens app] in *. rewrite <- app_assoc in *. cbn [app] in *. cbn [expression]. word.
    apply back_closed; [auto|auto with closers|len|]. word. apply H. len.
  - destruct G as (G1 & G). cbn [opn] in F.
    assert (X : expression m 15 (fun e => operators m p (PUn o e) k) (expr_tokens a ++ rest) = Parsed r).
    { assert (L' : (List.length (expr_tokens a ++ rest) < m)%nat).
      { cbn [expr_tokens] in L. destruct o; cbn [unop_tokens app List.length] in L; lia. }
      assert (F' : follow 15 (fun e => operators m p (PUn o e) k) rest) by (apply follow_again; [exact F|len]).
      apply IHa; [exact G| |exact L'| |].
      - split; [lia|]. destruct a; try exact Logic.I; cbn [level] in G1.
        + pose proof (binop_level_range o0). lia.
        + lia.
      - eapply follow_mono; [|exact F']. destruct a; cbn [opn level] in *; try lia.
        pose proof (binop_level_range o0). lia.
      - intros m' M. rewrite follow_stops; [|exact F'|exact M]. apply H. len. }
    destruct o; cbn [expr_tokens unop_tokens app expression]; word; exact X.
  - destruct G as (G1 & G2 & Ga & Gb). pose proof (binop_level_range o) as BR. cbn [opn] in F.
    cbn [expr_tokens] in *. rewrite <- !app_assoc in *.
    apply IHa; [exact Ga| |exact L| |].
    + apply (admits_left p a (binop_level o)); auto.
    + left. apply open_op; [|apply expr_starts]. unfold prec. now apply opn_above.
    + intros m' M. destruct m' as [|m']; [lia|]. cbn [operators].
      apply suffix_binary; [exact A'|apply expr_starts|].
      assert (L' : (List.length (expr_tokens b ++ rest) < m')%nat) by (destruct o; cbn [binop_tokens app List.length] in M; lia).
      assert (F' : follow (prec o + 1) (fun x => operators m' p (PBin o a x) k) rest) by (apply follow_again; [exact F|len]).
      apply IHb; [exact Gb| |exact L'| |].
      * pose proof (prec_range o). split; [lia|]. destruct b; try exact Logic.I; cbn [level] in G2; unfold prec; lia.
      * eapply follow_mono; [|exact F']. pose proof (opn_right b _ G2 BR). unfold prec. lia.
      * intros m2 M2. rewrite follow_stops; [|exact F'|exact M2]. apply H. len.
  - destruct G as (G1 & Gc & Ga & Gb). cbn [opn] in F.
    cbn [expr_tokens app] in *. rewrite <- !app_assoc in *. cbn [app] in *. rewrite <- !app_assoc in *. cbn [app] in *.
    apply IHc; [exact Gc| |exact L| |].
    + split; [exact A|]. destruct c; try exact Logic.I; [pose proof (prec_range o); lia|cbn in G1; lia].
    + left. assert (4 < opn c) by (destruct c; cbn [opn level] in *; try lia; pose proof (prec_range o); lia).
      unfold open_at. destruct (existsb _ alts) eqn:E; [|reflexivity]. exfalso.
      apply existsb_exists in E as (z & M & E). apply andb_true_iff in E as (E1 & E2). apply Z.leb_le in E1.
      unfold alts, binaries in M. cbn [map app In] in M.
      repeat (destruct M as [M|M]; [subst z; cbn [fst snd] in *; first [discriminate E2|lia]|]). destruct M.
    + intros m' M. destruct m' as [|m']; [lia|]. cbn [operators]. apply suffix_tern; [exact A'|].
      apply back_closed; [auto|auto with closers|len|]. word.
      assert (F' : follow 4 (fun x => operators m' p (PTern c a x) k) rest) by (apply follow_again; [exact F|len]).
      apply IHb; [exact Gb| |len| |].
      * split; [lia|]. destruct b; try exact Logic.I; [pose proof (prec_range o); lia|lia].
      * eapply follow_mono; [|exact F']. apply opn_pos.
      * intros m2 M2. rewrite follow_stops; [|exact F'|exact M2]. apply H. len.
  - cbn [expr_tokens app expression] in *. unfold pbind, prefix. apply H. len.
  - cbn [expr_tokens app expression] in *. unfold pbind, prefix. word. apply H. len.
  - cbn [expr_tokens app expression] in *. unfold pbind, prefix. apply H. len.
Qed.
