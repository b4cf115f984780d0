(** Proofs about the parser (C72): expressions. *)
From Coq Require Import ZArith List Bool String Lia.
From Verif Require Import M_Base M_Expr M_Lit M_Visit M_Parse S_Parse.
Import ListNotations.
Local Open Scope list_scope.
Open Scope Z_scope.

(** ** Runs that succeed *)

Lemma tok_inv {R} s (k : unit -> list token -> outcome R) ts r :
  tok s k ts = Parsed r -> exists rest, ts = K s :: rest /\ k tt rest = Parsed r.
Proof.
  unfold tok. destruct ts as [|[x|j x|x] tl]; try discriminate.
  destruct (String.eqb_spec x s); [|discriminate]. intros H. subst. eauto.
Qed.
Lemma ident_inv {R} (k : string -> list token -> outcome R) ts r :
  ident k ts = Parsed r -> exists s rest, ts = I s :: rest /\ k s rest = Parsed r.
Proof. unfold ident. destruct ts as [|[x|j x|x] tl]; try discriminate. intros H. eauto. Qed.
Lemma toks_inv {R} ss : forall (k : unit -> list token -> outcome R) ts r,
  toks ss k ts = Parsed r -> exists rest, ts = map K ss ++ rest /\ k tt rest = Parsed r.
Proof.
  induction ss as [|s tl IH]; intros k ts r H; cbn [toks] in H.
  - exists ts. split; [reflexivity|exact H].
  - unfold pbind in H. apply tok_inv in H as (rest & -> & H). apply IH in H as (rest2 & -> & H).
    exists rest2. split; [reflexivity|exact H].
Qed.
Lemma predict_inv {R A} (p q : parser R A) k ts r :
  predict p q k ts = Parsed r -> p k ts = Parsed r \/ (p k ts = Fails /\ q k ts = Parsed r).
Proof. unfold predict. destruct (p k ts); try discriminate; auto. Qed.
Lemma first_inv {R A} (l : list (parser R A)) k ts r :
  first_of l k ts = Parsed r -> exists p, In p l /\ p k ts = Parsed r.
Proof.
  induction l as [|p tl IH]; cbn [first_of]; [discriminate|].
  intros H. apply predict_inv in H as [H|[_ H]].
  - exists p. split; [now left|exact H].
  - apply IH in H as (q & M & H). exists q. split; [now right|exact H].
Qed.
Lemma precpred_inv {R A} prec p (q : parser R A) k ts r :
  precpred prec p q k ts = Parsed r -> p <= prec /\ q k ts = Parsed r.
Proof. unfold precpred. destruct (p <=? prec) eqn:E; [|discriminate]. apply Z.leb_le in E. auto. Qed.
Lemma look_inv {R A} f (p q : parser R A) k ts r :
  look f p q k ts = Parsed r -> (f ts = true /\ p k ts = Parsed r) \/ (f ts = false /\ q k ts = Parsed r).
Proof. unfold look. destruct (f ts); auto. Qed.

Ltac papp := cbn [expr_tokens app]; repeat (progress (rewrite <- ?app_assoc; cbn [app])); reflexivity.
Ltac pinv H :=
  repeat first
    [ progress (unfold pbind, pret in H)
    | apply tok_inv in H as (? & -> & H)
    | apply ident_inv in H as (? & ? & -> & H) ].

Lemma binaries_tokens : forall prec q ss o, In (prec, q, ss, o) binaries -> map K ss = binop_tokens o.
Proof.
  assert (F : Forall (fun b => match b with (_, _, ss, o) => map K ss = binop_tokens o end) binaries)
    by (unfold binaries; repeat constructor).
  intros prec q ss o M. exact (proj1 (Forall_forall _ _) F _ M).
Qed.

Definition reads {R} (p : parser R pexpr) : Prop := forall k ts r, p k ts = Parsed r ->
  exists e rest, ts = expr_tokens e ++ rest /\ k e rest = Parsed r.
(** Operators behind an expression extend it. *)
Definition extends {R} (p : pexpr -> parser R pexpr) : Prop := forall e k ts r, p e k ts = Parsed r ->
  exists g x rest, ts = x ++ rest /\ (forall e', expr_tokens (g e') = expr_tokens e' ++ x) /\ k (g e) rest = Parsed r.

Lemma prefix_reads {R} (sub : Z -> parser R pexpr) : (forall q, reads (sub q)) -> reads (prefix sub).
Proof.
  intros HS k ts r H. unfold prefix in H.
  destruct ts as [|[s|j s|s] tl]; [discriminate| | |].
  - repeat (match type of H with (if String.eqb s ?w then _ else _) _ _ = _ =>
        destruct (String.eqb_spec s w); [subst s|] end);
      [..|discriminate];
      unfold pbind, pret in H; apply tok_inv in H as (rest & E & H); injection E as <-.
    1:{ apply HS in H as (e & rest2 & -> & H). pinv H. eexists (PParen e), _. split; [|exact H]. papp. }
    1:{ pinv H. apply HS in H as (e & rest2 & -> & H). pinv H. apply HS in H as (e2 & rest3 & -> & H). pinv H.
        eexists (PIsset e e2), _. split; [|exact H]. papp. }
    1:{ pinv H. apply HS in H as (e & rest2 & -> & H). pinv H. eexists (PLengthof e), _. split; [|exact H]. papp. }
    1:{ pinv H. apply HS in H as (e & rest2 & -> & H). pinv H. eexists (PValueof e), _. split; [|exact H]. papp. }
    1:{ pinv H. apply HS in H as (e & rest2 & -> & H). pinv H. eexists (PNumbits e), _. split; [|exact H]. papp. }
    1-4:  apply HS in H as (e & rest2 & -> & H).
    + eexists (PUn UBang e), _. split; [|exact H]. reflexivity.
    + eexists (PUn UMinus e), _. split; [|exact H]. reflexivity.
    + eexists (PUn UPlus e), _. split; [|exact H]. reflexivity.
    + eexists (PUn UTilde e), _. split; [|exact H]. reflexivity.
    + eexists PIndex, _. split; [|exact H]. reflexivity.
  - eexists (PLit j s), _. split; [|exact H]. reflexivity.
  - eexists (PId s), _. split; [|exact H]. reflexivity.
Qed.

Lemma suffix_extends {R} (sub : Z -> parser R pexpr) again p :
  (forall q, reads (sub q)) -> extends again -> extends (suffix sub again p).
Proof.
  intros HS HA e k ts r H. unfold suffix in H.
  apply predict_inv in H as [H|[_ H]].
  2:{ exists (fun e' => e'), [], ts. repeat split; [intros; now rewrite app_nil_r|exact H]. }
  apply predict_inv in H as [H|[_ H]].
  - apply first_inv in H as (q & M & H). apply in_map_iff in M as ([[[prec q'] ss] o] & <- & M).
    apply precpred_inv in H as (_ & H). unfold pbind in H.
    apply toks_inv in H as (rest & -> & H). apply HS in H as (x & rest2 & -> & H).
    apply HA in H as (g & y & rest3 & -> & G & H).
    exists (fun e' => g (PBin o e' x)), (binop_tokens o ++ expr_tokens x ++ y), rest3.
    rewrite (binaries_tokens _ _ _ _ M). repeat split; [now rewrite <- !app_assoc| |exact H].
    intros e'. rewrite G. papp.
  - apply first_inv in H as (q & M & H). cbn [In] in M.
    destruct M as [<-|[<-|[<-|[<-|[]]]]]; apply precpred_inv in H as (_ & H); unfold pbind in H;
      apply tok_inv in H as (rest1 & -> & H).
    + apply HS in H as (x & rest2 & -> & H). apply tok_inv in H as (rest3 & -> & H).
      apply HS in H as (y & rest4 & -> & H).
      apply HA in H as (g & z & rest5 & -> & G & H).
      exists (fun e' => g (PTern e' x y)), ([K "?"] ++ expr_tokens x ++ [K ":"] ++ expr_tokens y ++ z), rest5.
      repeat split; [papp| |exact H]. intros e'. rewrite G. papp.
    + apply tok_inv in H as (rest2 & -> & H). apply HA in H as (g & z & rest4 & -> & G & H).
      exists (fun e' => g (PCall e')), ([K "("; K ")"] ++ z), rest4.
      repeat split; [|exact H]. intros e'. rewrite G. papp.
    + apply HS in H as (x & rest2 & -> & H). apply tok_inv in H as (rest3 & -> & H).
      apply HA in H as (g & z & rest4 & -> & G & H).
      exists (fun e' => g (PElem e' x)), ([K "["] ++ expr_tokens x ++ [K "]"] ++ z), rest4.
      repeat split; [papp| |exact H]. intros e'. rewrite G. papp.
    + apply ident_inv in H as (m & rest2 & -> & H). apply HA in H as (g & z & rest4 & -> & G & H).
      exists (fun e' => g (PDot e' m)), ([K "."; I m] ++ z), rest4.
      repeat split; [|exact H]. intros e'. rewrite G. papp.
Qed.

Lemma expression_both {R} : forall n,
  (forall p, reads (@expression R n p)) /\ (forall p, extends (@operators R n p)).
Proof.
  induction n as [|m [IH1 IH2]]; [split; intros p; [intros k ts r H|intros e k ts r H]; discriminate|].
  split; intros p.
  - intros k ts r H. cbn [expression] in H. unfold pbind in H.
    apply (prefix_reads _ IH1) in H as (e & rest & -> & H).
    apply IH2 in H as (g & x & rest2 & -> & G & H).
    exists (g e), rest2. rewrite G, <- app_assoc. split; [reflexivity|exact H].
  - intros e k ts r H. cbn [operators] in H. exact (suffix_extends _ _ p IH1 (IH2 p) e k ts r H).
Qed.
Lemma expression_reads {R} n p : reads (@expression R n p).
Proof. exact (proj1 (expression_both n) p). Qed.
Lemma operators_extend {R} n p : extends (@operators R n p).
Proof. exact (proj2 (expression_both n) p). Qed.

(** ** Runs that do not run out of fuel *)

(** With more fuel than tokens, the rule ends, having consumed at least [d] tokens. *)
Definition quiet {R A} (d : nat) (p : parser R A) (n : nat) : Prop := forall k ts,
  (List.length ts < n)%nat -> (forall a rest, (List.length rest + d <= List.length ts)%nat -> k a rest <> Fuel) ->
  p k ts <> Fuel.

Lemma quiet_weaken {R A} d d' (p : parser R A) n n' :
  quiet d p n -> (d' <= d)%nat -> (n' <= n)%nat -> quiet d' p n'.
Proof. intros Q L M k ts E H. apply Q; [lia|]. intros a rest X. apply H. lia. Qed.
Lemma quiet_bind {R A B} d1 d2 (p : parser R A) (f : A -> parser R B) n1 n2 :
  quiet d1 p n1 -> (forall a, quiet d2 (f a) n2) -> (n1 <= n2 + d1)%nat -> quiet (d1 + d2) (pbind p f) n1.
Proof.
  intros P F L k ts E H. unfold pbind. apply P; [exact E|]. intros a rest X. apply F; [lia|].
  intros b rest2 Y. apply H. lia.
Qed.
Lemma quiet_ret {R A} (a : A) n : quiet 0 (@pret R A a) n.
Proof. intros k ts E H. apply H. lia. Qed.
Lemma quiet_fail {R A} d n : quiet d (@pfail R A) n.
Proof. intros k ts E H. discriminate. Qed.
Lemma quiet_tok {R} s n : quiet 1 (@tok R s) n.
Proof.
  intros k ts E H. unfold tok. destruct ts as [|[x|j x|x] tl]; try discriminate.
  destruct (String.eqb x s); [|discriminate]. apply H. cbn. lia.
Qed.
Lemma quiet_ident {R} n : quiet 1 (@ident R) n.
Proof.
  intros k ts E H. unfold ident. destruct ts as [|[x|j x|x] tl]; try discriminate. apply H. cbn. lia.
Qed.
Lemma quiet_lit {R} j n : quiet 1 (@lit_of R j) n.
Proof.
  intros k ts E H. unfold lit_of. destruct ts as [|[x|i x|x] tl]; try discriminate.
  destruct i, j; try discriminate; apply H; cbn; lia.
Qed.
Lemma quiet_one {R} l n : quiet 1 (@one_of R l) n.
Proof.
  intros k ts E H. unfold one_of. destruct ts as [|[x|i x|x] tl]; try discriminate.
  destruct (existsb _ _); [|discriminate]. apply H. cbn. lia.
Qed.
Lemma quiet_predict {R A} d (p q : parser R A) n : quiet d p n -> quiet d q n -> quiet d (predict p q) n.
Proof.
  intros P Q k ts E H. unfold predict. specialize (P k ts E H). specialize (Q k ts E H).
  destruct (p k ts); congruence.
Qed.
Lemma quiet_look {R A} d f (p q : parser R A) n : quiet d p n -> quiet d q n -> quiet d (look f p q) n.
Proof. intros P Q k ts E H. unfold look. destruct (f ts); [apply P|apply Q]; auto. Qed.
Lemma quiet_precpred {R A} d prec p (q : parser R A) n : quiet d q n -> quiet d (precpred prec p q) n.
Proof. intros Q. unfold precpred. destruct (p <=? prec); [exact Q|apply quiet_fail]. Qed.
Lemma quiet_first {R A} d (l : list (parser R A)) n : Forall (fun p => quiet d p n) l -> quiet d (first_of l) n.
Proof.
  induction 1; cbn [first_of]; [apply quiet_fail|]. now apply quiet_predict.
Qed.
Lemma quiet_toks {R} ss n : quiet (List.length ss) (@toks R ss) n.
Proof.
  induction ss as [|s tl IH]; cbn [toks List.length]; [apply quiet_ret|].
  apply (quiet_bind 1 _ _ _ n n); [apply quiet_tok|intros _; exact IH|lia].
Qed.
(** The common case: the first part consumes a token and the rest may do with less fuel. *)
Lemma quiet_step {R A B} (p : parser R A) (f : A -> parser R B) m :
  quiet 1 p (S m) -> (forall a, quiet 0 (f a) m) -> quiet 1 (pbind p f) (S m).
Proof. intros P F. apply (quiet_bind 1 0 p f (S m) m); [exact P|exact F|lia]. Qed.
Lemma quiet_bind0 {R A B} (p : parser R A) (f : A -> parser R B) n :
  quiet 0 p n -> (forall a, quiet 0 (f a) n) -> quiet 0 (pbind p f) n.
Proof. intros P F. apply (quiet_bind 0 0 p f n n); [exact P|exact F|lia]. Qed.
Lemma quiet_bind1 {R A B} (p : parser R A) (f : A -> parser R B) n :
  quiet 1 p n -> (forall a, quiet 0 (f a) n) -> quiet 1 (pbind p f) n.
Proof. intros P F. apply (quiet_bind 1 0 p f n n); [exact P|exact F|lia]. Qed.
Lemma quiet_bind01 {R A B} (p : parser R A) (f : A -> parser R B) n :
  quiet 0 p n -> (forall a, quiet 1 (f a) n) -> quiet 1 (pbind p f) n.
Proof. intros P F. apply (quiet_bind 0 1 p f n n); [exact P|exact F|lia]. Qed.
Lemma quiet_0 {R A} (p : parser R A) n : quiet 1 p n -> quiet 0 p n.
Proof. intros P. apply (quiet_weaken 1 0 p n n); auto. Qed.

Ltac quiet0 :=
  match goal with
  | |- quiet 0 (pbind _ _) _ => apply quiet_bind0; [quiet0|intros; quiet0]
  | |- quiet 0 (pret _) _ => apply quiet_ret
  | |- quiet 0 (predict _ _) _ => apply quiet_predict; quiet0
  | |- quiet 0 (look _ _ _) _ => apply quiet_look; quiet0
  | |- quiet 0 pfail _ => apply quiet_fail
  | _ => first [assumption | solve [auto] | apply quiet_0; quiet1]
  end
with quiet1 :=
  match goal with
  | |- quiet 1 (tok _) _ => apply quiet_tok
  | |- quiet 1 ident _ => apply quiet_ident
  | |- quiet 1 (lit_of _) _ => apply quiet_lit
  | |- quiet 1 (one_of _) _ => apply quiet_one
  | |- quiet 1 pfail _ => apply quiet_fail
  | |- quiet 1 (pbind _ _) _ =>
      first [apply quiet_bind1; [solve [quiet1]|intros; quiet0] | apply quiet_bind01; [quiet0|intros; quiet1]]
  | |- quiet 1 (predict _ _) _ => apply quiet_predict; quiet1
  | |- quiet 1 (look _ _ _) _ => apply quiet_look; quiet1
  | _ => solve [auto]
  end.

Lemma prefix_quiet {R} (sub : Z -> parser R pexpr) m : (forall q, quiet 1 (sub q) m) -> quiet 1 (prefix sub) (S m).
Proof.
  intros HS k ts E H. unfold prefix. destruct ts as [|[s|j s|s] tl]; [discriminate| | |].
  2,3: apply H; cbn; lia.
  assert (HS0 : forall q, quiet 0 (sub q) m) by (intros; apply quiet_0; auto).
  repeat (match goal with |- (if String.eqb s ?w then _ else _) _ _ <> _ => destruct (String.eqb s w) end);
    [..|discriminate];
    match goal with |- ?p k (K s :: tl) <> Fuel =>
      assert (Q : quiet 1 p (S m)) by (apply quiet_step; [apply quiet_tok|intros; quiet0]);
      exact (Q k (K s :: tl) E H) end.
Qed.
Lemma suffix_quiet {R} (sub : Z -> parser R pexpr) again p e m :
  (forall q, quiet 1 (sub q) m) -> (forall e, quiet 0 (again e) m) -> quiet 0 (suffix sub again p e) (S m).
Proof.
  intros HS HA. unfold suffix.
  assert (HS0 : forall q, quiet 0 (sub q) m) by (intros; apply quiet_0; auto).
  apply quiet_predict; [|apply quiet_ret]. apply quiet_0. apply quiet_predict; apply quiet_first.
  - apply Forall_forall. intros q M. apply in_map_iff in M as ([[[prec q'] ss] o] & <- & M).
    apply quiet_precpred.
    assert (N : (1 <= List.length ss)%nat).
    { pose proof (binaries_tokens _ _ _ _ M) as X. apply (f_equal (@List.length token)) in X.
      rewrite map_length in X. rewrite X. destruct o; cbn; lia. }
    apply quiet_step; [|intros; quiet0].
    apply (quiet_weaken _ 1 _ _ (S m) (quiet_toks ss (S m))); lia.
  - repeat constructor; apply quiet_precpred; (apply quiet_step; [apply quiet_tok|intros; quiet0]).
Qed.
Lemma expression_quiet_both {R} : forall n,
  (forall p, quiet 1 (@expression R n p) n) /\ (forall p e, quiet 0 (@operators R n p e) n).
Proof.
  induction n as [|m [IH1 IH2]]; [split; intros; intros k ts E; lia|].
  split; intros.
  - cbn [expression]. apply quiet_step; [now apply prefix_quiet|intros; apply IH2].
  - cbn [operators]. now apply suffix_quiet.
Qed.
Lemma expression_quiet {R} n p : quiet 1 (@expression R n p) n.
Proof. exact (proj1 (expression_quiet_both n) p). Qed.
Lemma operators_quiet {R} n p e : quiet 0 (@operators R n p e) n.
Proof. exact (proj2 (expression_quiet_both n) p e). Qed.
