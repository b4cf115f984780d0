(** Proofs about the parser (C72): every schema is read back. *)
From Coq Require Import ZArith List Bool String Lia.
From Verif Require Import M_Base M_Expr M_Lit M_Visit M_Parse S_Parse P_Parse P_Parse2 P_Parse3 P_Parse4.
Import ListNotations.
Local Open Scope list_scope.
Open Scope Z_scope.

(** The rule reads [a] from the tokens [c] when what follows is in [G]. With [b], the rest
    of the run must not run out of fuel. *)
Definition takes {R A} (b : bool) (n : nat) (p : parser R A) (a : A) (c : list token) (G : list token -> Prop) : Prop :=
  forall k rest r, (List.length (c ++ rest) < n)%nat -> G rest ->
    (b = true -> forall x rest', (List.length rest' < List.length (c ++ rest))%nat -> k x rest' <> Fuel) ->
    k a rest = Parsed r -> p k (c ++ rest) = Parsed r.
Definition any : list token -> Prop := fun _ => True.
Definition not_in (l : list string) : list token -> Prop := fun ts => la_in l ts = false.
Definition closed : list token -> Prop := fun ts => exists s rest, ts = K s :: rest /\ closer s.

Lemma takes_any {R A} b n (p : parser R A) a c (G : list token -> Prop) : takes false n p a c G -> takes b n p a c G.
Proof. intros H k rest r L HG _ E. apply H; auto. discriminate. Qed.
Lemma takes_weaken {R A} b n m (p : parser R A) a c (G G' : list token -> Prop) :
  takes b n p a c G -> (m <= n)%nat -> (forall rest, G' rest -> G rest) -> takes b m p a c G'.
Proof. intros H L W k rest r X Y. apply H; [lia|auto]. Qed.
Lemma takes_bind {R A B} b n (p : parser R A) (f : A -> parser R B) a x c1 c2 (G1 G2 : list token -> Prop) :
  takes b n p a c1 G1 -> (b = true -> forall y, quiet 0 (f y) n) -> takes b n (f a) x c2 G2 ->
  (forall rest, G2 rest -> G1 (c2 ++ rest)) -> takes b n (pbind p f) x (c1 ++ c2) G2.
Proof.
  intros H1 Q H2 W k rest r L HG HK E. unfold pbind. rewrite <- app_assoc in *. apply H1; auto.
  - intros Hb y rest' L'. apply (Q Hb y); [lia|]. intros z rest2 L2. apply (HK Hb). lia.
  - apply H2; auto; [len|]. intros Hb y rest' L'. apply (HK Hb). len.
Qed.
Lemma takes_bind_g {R A B} b n (p : parser R A) (f : A -> parser R B) a x c1 c2 (G1 G2 : list token -> Prop) :
  takes false n p a c1 G1 -> takes b n (f a) x c2 G2 ->
  (forall rest, G2 rest -> G1 (c2 ++ rest)) -> takes b n (pbind p f) x (c1 ++ c2) G2.
Proof.
  intros H1 H2 W k rest r L HG HK E. unfold pbind. rewrite <- app_assoc in *. apply H1; auto; [discriminate|].
  apply H2; auto; [len|]. intros Hb y rest' L'. apply (HK Hb). len.
Qed.
Lemma takes_ret {R A} b n (a : A) (G : list token -> Prop) : takes b n (@pret R A a) a [] G.
Proof. intros k rest r L HG HK E. exact E. Qed.
Lemma takes_map {R A B} b n (p : parser R A) (f : A -> B) a c (G : list token -> Prop) :
  takes b n p a c G -> takes b n (let%p y := p in pret (f y)) (f a) c G.
Proof. intros H k rest r L HG HK E. unfold pbind, pret. apply H; auto. Qed.
Lemma takes_tok {R} b n s (G : list token -> Prop) : takes b n (@tok R s) tt [K s] G.
Proof. intros k rest r L HG HK E. cbn [app tok]. now rewrite String.eqb_refl. Qed.
Lemma takes_ident {R} b n s (G : list token -> Prop) : takes b n (@ident R) s [I s] G.
Proof. intros k rest r L HG HK E. exact E. Qed.
Lemma takes_t {R B} b n s (q : parser R B) x c (G : list token -> Prop) :
  takes b n q x c G -> takes b n (tok s ;; q) x (K s :: c) G.
Proof.
  intros H. change (K s :: c) with ([K s] ++ c). eapply (takes_bind_g _ _ _ _ tt _ _ _ any); [apply takes_tok|exact H|]. easy.
Qed.
Lemma takes_i {R B} b n s (q : string -> parser R B) x c (G : list token -> Prop) :
  takes b n (q s) x c G -> takes b n (let%p y := ident in q y) x (I s :: c) G.
Proof.
  intros H. change (I s :: c) with ([I s] ++ c). eapply (takes_bind_g _ _ _ _ s _ _ _ any); [apply takes_ident|exact H|]. easy.
Qed.
Lemma takes_expr {R} b n e : grouped e -> takes b n (@expression R n 0) e (expr_tokens e) closed.
Proof.
  intros Hg k rest r L (s & rest' & -> & C) HK E. apply back_closed; auto. now apply reads_back.
Qed.
Lemma takes_look_l {R A} b n f (p q : parser R A) a c (G : list token -> Prop) :
  takes b n p a c G -> (forall rest, G rest -> f (c ++ rest) = true) -> takes b n (look f p q) a c G.
Proof. intros H W k rest r L HG HK E. unfold look. rewrite W by exact HG. now apply H. Qed.
Lemma takes_look_r {R A} b n f (p q : parser R A) a c (G : list token -> Prop) :
  takes b n q a c G -> (forall rest, G rest -> f (c ++ rest) = false) -> takes b n (look f p q) a c G.
Proof. intros H W k rest r L HG HK E. unfold look. rewrite W by exact HG. now apply H. Qed.
Lemma takes_opt {R A} b n first (p : parser R A) f x (G : list token -> Prop) :
  (forall a, x = Some a -> takes b n p a (f a) G /\ forall rest, first (f a ++ rest) = true) ->
  (x = None -> forall rest, G rest -> first rest = false) -> takes b n (opt first p) x (opt_tokens f x) G.
Proof.
  intros H1 H2. unfold opt. destruct x as [a|].
  - destruct (H1 a eq_refl) as (T & F). apply takes_look_l; [now apply takes_map|]. intros. apply F.
  - apply takes_look_r; [apply takes_ret|]. intros. cbn [opt_tokens app]. auto.
Qed.
Lemma takes_flag {R} b n s x (G : list token -> Prop) :
  (x = false -> forall rest, G rest -> la s rest = false) -> takes b n (@flag R s) x (word x s) G.
Proof.
  intros H. unfold flag. destruct x; cbn [word].
  - apply takes_look_l; [apply takes_t, takes_ret|]. intros. cbn. now rewrite String.eqb_refl.
  - apply takes_look_r; [apply takes_ret|]. intros. cbn [app]. auto.
Qed.
Lemma takes_many {R A} b n first (p : parser R A) f (l : list A) (G Gp : list token -> Prop) :
  (b = true -> quiet 1 p n) ->
  (forall a, In a l -> takes b n p a (f a) Gp) ->
  (forall a rest, In a l -> first (f a ++ rest) = true /\ Gp (f a ++ rest)) ->
  (forall a, In a l -> f a <> []) ->
  (forall rest, G rest -> first rest = false /\ Gp rest) ->
  forall m, (m <= n)%nat -> takes b m (many m first p) l (flat_map f l) G.
Proof.
  intros Q HP HF HN HG. induction l as [|a l IH]; intros m M.
  - intros k rest r L Hg HK E. destruct m as [|m]; [lia|]. cbn [many flat_map app]. unfold look.
    now rewrite (proj1 (HG _ Hg)).
  - intros k rest r L Hg HK E. destruct m as [|m]; [lia|]. cbn [many flat_map] in *. unfold look.
    rewrite <- app_assoc in *. rewrite (proj1 (HF a _ (or_introl eq_refl))).
    unfold pbind, pret. pose proof (HN a (or_introl eq_refl)) as NN.
    assert (LA : (1 <= List.length (f a))%nat) by (destruct (f a); [congruence|cbn; lia]).
    apply (HP a (or_introl eq_refl)); [lia| | |].
    + destruct l as [|a2 l]; [exact (proj2 (HG _ Hg))|]. cbn [flat_map]. rewrite <- app_assoc. apply HF. cbn. auto.
    + intros Hb x rest' L'.
      apply (quiet_many _ _ n (Q Hb) m); [lia|lia|]. intros y rest2 L3. apply (HK Hb). lia.
    + apply IH; try lia; auto.
      * intros; apply HP; cbn; auto.
      * intros; apply HF; cbn; auto.
      * intros; apply HN; cbn; auto.
      * len.
      * intros Hb x rest' L'. apply (HK Hb). len.
Qed.
Lemma takes_commas {R A} b n (p : parser R A) f l (G Gp : list token -> Prop) :
  (b = true -> quiet 1 p n) -> l <> [] ->
  (forall a, In a l -> takes b n p a (f a) Gp) ->
  (forall rest, Gp (K "," :: rest)) ->
  (forall rest, G rest -> la "," rest = false /\ Gp rest) ->
  takes b n (commas n p) l (separated f l) G.
Proof.
  intros Q N HP HC HG. destruct l as [|a l]; [congruence|]. rewrite separated_cons. unfold commas.
  assert (Q2 : b = true -> quiet 0 (many n (la ",") (tok "," ;; p)) n).
  { intros Hb. apply (quiet_many _ _ n); [|lia]. apply quiet_bind1; [apply quiet_tok|]. intros _. apply quiet_0. auto. }
  eapply takes_bind; [apply HP; cbn; auto| | |].
  - intros Hb y. specialize (Q2 Hb). quiet0.
  - apply (takes_map b n _ (fun l => a :: l)).
    apply (takes_many b n (la ",") (tok "," ;; p) (fun x => K "," :: f x) l G Gp); auto.
    + intros Hb. apply quiet_bind1; [apply quiet_tok|]. intros _. apply quiet_0. auto.
    + intros y M. apply takes_t. apply HP. cbn. auto.
    + intros y rest M. split; [reflexivity|apply HC].
    + discriminate.
  - intros rest Hg. destruct l as [|y l]; cbn [flat_map app]; [exact (proj2 (HG _ Hg))|apply HC].
Qed.
Lemma takes_qualified {R} n m ids : (n <= S m)%nat -> ids <> [] -> takes false n (@qualified R m) ids (dotted ids) (not_in ["."%string]).
Proof.
  intros L N. destruct ids as [|a l]; [congruence|]. rewrite dotted_cons.
  intros k rest r Ln HG _ E. unfold qualified, pbind, pret. cbn [ident app].
  assert (T : takes false m (many m (la ".") (tok "." ;; ident) : parser R (list string)) l (flat_map (fun x => [K "."; I x]) l) (not_in ["."%string])).
  { apply (takes_many false m _ _ _ _ _ any); auto; try easy. }
  apply T; auto; [cbn [app List.length] in Ln; lia|discriminate].
Qed.
Lemma plain_in s : In s (bit_types ++ plain_types) -> existsb (String.eqb s) (bit_types ++ plain_types) = true.
Proof. intros H. apply existsb_exists. exists s. split; [exact H|apply String.eqb_refl]. Qed.
Lemma bits_plain s : In s bit_types -> existsb (String.eqb s) bit_types = true.
Proof. intros H. apply existsb_exists. exists s. split; [exact H|apply String.eqb_refl]. Qed.
Lemma takes_builtin {R} n s w : type_wf (PBuiltin s w) -> takes false n (@builtin R) (PBuiltin s w) (type_tokens (PBuiltin s w)) (not_in [":"%string]).
Proof.
  intros W k rest r L HG _ E. unfold builtin, predict, pbind, pret, one_of. destruct w as [w|]; cbn [type_tokens app type_wf] in *.
  - rewrite (bits_plain s W). cbn. now rewrite E.
  - destruct (existsb (String.eqb s) bit_types) eqn:B.
    + replace (tok ":" _ rest) with (@Fails R); [now rewrite E|]. unfold tok. destruct rest as [|[x|j x|x] tl]; auto.
      unfold not_in, la_in in HG. cbn in HG. rewrite orb_false_r in HG. now rewrite HG.
    + replace (existsb (String.eqb s) plain_types) with true; [exact E|].
      symmetry. apply builtin_listed, in_app_or in W as [W|W]; [apply bits_plain in W; congruence|].
      apply existsb_exists. exists s. split; [exact W|apply String.eqb_refl].
Qed.
(** What may follow a type. *)
Definition after_type (t : ptype) (ts : list token) : Prop :=
  not_in [":"%string] ts /\ (not_in ["."; "<"]%string ts \/ exists s w, t = PBuiltin s w).
Lemma tok_fails {R} s (k : unit -> list token -> outcome R) ts : la s ts = false -> tok s k ts = Fails.
Proof.
  unfold tok, la, la_in. destruct ts as [|[x|j x|x] tl]; auto. cbn. rewrite orb_false_r. intros ->. reflexivity.
Qed.
Lemma takes_type {R} : forall n t, type_wf t -> takes false n (@type_ref R n) t (type_tokens t) (after_type t).
Proof.
  induction n as [|m IH]; intros t W k rest r L HG _ E; [lia|]. cbn [type_ref]. destruct t as [s w|ids l].
  - unfold look. replace (la_in (bit_types ++ plain_types) (type_tokens (PBuiltin s w) ++ rest)) with true.
    + apply (takes_builtin (S m)); auto; [apply HG|discriminate].
    + symmetry. assert (M : In s (bit_types ++ plain_types)) by exact (builtin_wf s w W).
      destruct w; cbn [type_tokens app la_in]; now apply plain_in.
  - apply type_wf_name in W as (N & F). destruct HG as (HC & [HG|(s & w & HG)]); [|discriminate].
    unfold look. replace (la_in (bit_types ++ plain_types) (type_tokens (PName ids l) ++ rest)) with false.
    2:{ destruct ids as [|i ids]; [congruence|]. destruct l; [cbn [type_tokens]|rewrite type_tokens_name]; rewrite dotted_cons; reflexivity. }
    unfold pbind at 1. destruct l as [|a l].
    + cbn [type_tokens] in *. apply (takes_qualified (S m) m); auto; [|discriminate|].
      * unfold not_in, la_in in *. destruct rest as [|[x|j x|x] tl]; auto. cbn in HG |- *.
        destruct (String.eqb x "."); [discriminate|reflexivity].
      * unfold predict, pbind, pret at 1. rewrite tok_fails; [exact E|].
        unfold not_in, la, la_in in *. destruct rest as [|[x|j x|x] tl]; auto. cbn in HG |- *.
        destruct (String.eqb x "."), (String.eqb x "<"); try discriminate; reflexivity.
    + rewrite type_tokens_name in *. rewrite <- !app_assoc in *.
      assert (LD : (1 <= List.length (dotted ids))%nat) by (destruct ids as [|i ids]; [congruence|rewrite dotted_cons; cbn; lia]).
      apply (takes_qualified (S m) m); auto; [|discriminate|].
      * reflexivity.
      * unfold predict, pbind, pret at 1. cbn [app tok]. cbn [String.eqb Ascii.eqb Bool.eqb].
        assert (T : takes false m (commas m (@type_ref R m)) (a :: l) (separated type_tokens (a :: l)) (fun ts => exists tl, ts = K ">" :: tl)).
        { apply (takes_commas false m _ _ _ _ (fun ts => exists tl, ts = K ">" :: tl \/ ts = K "," :: tl)); try easy.
          - intros y M. eapply takes_weaken; [apply IH; eapply Forall_forall; eauto|lia|].
            intros tl (tl' & [->| ->]); (split; [reflexivity|left; reflexivity]).
          - intros tl. eauto.
          - intros tl (tl' & ->). split; [reflexivity|eauto]. }
        rewrite (T _ (K ">" :: rest) r); auto; [len|eauto|discriminate].
Qed.

(** ** How things start *)

Lemma la_in_expr l e rest :
  forallb (fun s => negb (existsb (String.eqb s) l)) ["!"; "("; "-"; "+"; "~"; "@index"; "isset"; "lengthof"; "numbits"; "valueof"]%string = true ->
  not_in l (expr_tokens e ++ rest).
Proof.
  intros H. pose proof (expr_starts e rest) as S1. unfold not_in, la_in. destruct (expr_tokens e ++ rest) as [|[s|j s|s] tl]; auto.
  unfold la_expr in S1. cbn [la_lit la_id] in S1. rewrite !orb_false_r in S1. unfold la_in in S1.
  apply existsb_exists in S1 as (x & M & E). apply String.eqb_eq in E as <-.
  rewrite forallb_forall in H. apply H in M. now apply negb_true_iff in M.
Qed.
Lemma la_in_type l t rest : type_wf t ->
  forallb (fun s => negb (existsb (String.eqb s) l)) (bit_types ++ plain_types) = true -> not_in l (type_tokens t ++ rest).
Proof.
  intros W H. destruct t as [s w|ids args].
  - assert (M : In s (bit_types ++ plain_types)) by exact (builtin_wf s w W).
    rewrite forallb_forall in H. apply H, negb_true_iff in M. destruct w; exact M.
  - apply type_wf_name in W as (N & _). destruct ids as [|i ids]; [congruence|].
    destruct args; [cbn [type_tokens]|rewrite type_tokens_name]; rewrite dotted_cons; reflexivity.
Qed.
Lemma la_in_inst l t rest : type_wf (pi_type t) ->
  forallb (fun s => negb (existsb (String.eqb s) l)) (bit_types ++ plain_types) = true -> not_in l (inst_tokens t ++ rest).
Proof. intros W H. unfold inst_tokens. rewrite <- app_assoc. now apply la_in_type. Qed.
Lemma type_starts t rest : type_wf t -> la_in (bit_types ++ plain_types) (type_tokens t ++ rest) || la_id (type_tokens t ++ rest) = true.
Proof.
  intros W. destruct t as [s w|ids args].
  - assert (M : In s (bit_types ++ plain_types)) by exact (builtin_wf s w W).
    apply plain_in in M. destruct w; cbn [type_tokens app la_in]; now rewrite M.
  - apply type_wf_name in W as (N & _). destruct ids as [|i ids]; [congruence|].
    destruct args; [cbn [type_tokens]|rewrite type_tokens_name]; rewrite dotted_cons; reflexivity.
Qed.
Lemma member_starts m rest : type_wf (pi_type (pm_inst m)) -> la_member (member_tokens m ++ rest) = true.
Proof.
  intros W. unfold member_tokens. destruct (pm_packed m); [reflexivity|]. destruct (pm_implicit m); [reflexivity|].
  cbn [word app]. unfold inst_tokens. rewrite <- !app_assoc.
  pose proof (type_starts (pi_type (pm_inst m)) (suffix_tokens (pi_suffix (pm_inst m)) ++ ([I (pm_name m)] ++ range_tokens (pm_range m)) ++ rest) W) as S1.
  unfold la_member, la_in in *. destruct (type_tokens _ ++ _) as [|[s|j s|s] tl]; auto.
  cbn [la_id] in *. rewrite orb_false_r in *.
  change (existsb (String.eqb s) ("packed" :: "implicit" :: bit_types ++ plain_types))%string
    with (String.eqb s "packed" || (String.eqb s "implicit" || existsb (String.eqb s) (bit_types ++ plain_types)))%string.
  rewrite S1. now rewrite !orb_true_r.
Qed.
Lemma la_in_member l m rest : type_wf (pi_type (pm_inst m)) ->
  forallb (fun s => negb (existsb (String.eqb s) l)) ("packed"%string :: "implicit"%string :: bit_types ++ plain_types) = true -> not_in l (member_tokens m ++ rest).
Proof.
  intros W H. cbn [forallb] in H. apply andb_prop in H as (H1 & H). apply andb_prop in H as (H2 & H).
  apply negb_true_iff in H1, H2. unfold member_tokens.
  destruct (pm_packed m); [exact H1|]. destruct (pm_implicit m); [exact H2|]. cbn [word app]. rewrite <- app_assoc.
  now apply la_in_inst.
Qed.

(** ** Instantiations, members and fields *)

Lemma takes_argument {R} n a : arg_wf a -> takes false n (@argument R n) a (arg_tokens a) closed.
Proof.
  intros W. unfold argument. destruct a as [s|e]; cbn [arg_tokens].
  - apply takes_look_l; [|reflexivity]. apply takes_t, takes_i, takes_ret.
  - apply takes_look_r.
    + apply (takes_map false n _ PArg). now apply takes_expr.
    + intros rest _. apply la_in_expr. reflexivity.
Qed.
Lemma closed_cons s rest : closer s -> closed (K s :: rest).
Proof. intros C. exists s, rest. auto. Qed.
Definition at_name : list token -> Prop := fun ts => exists x tl, ts = I x :: tl /\ ends tl.
Lemma takes_inst {R} n t : inst_wf t -> takes true n (@instantiation R n) t (inst_tokens t) at_name.
Proof.
  intros (W & Ws). destruct t as [t sf]. cbn [pi_type pi_suffix] in *. unfold inst_tokens, instantiation. cbn [pi_type pi_suffix].
  eapply (takes_bind_g _ _ _ _ _ _ _ _ (after_type t)); [now apply takes_type| |].
  - destruct sf as [|l|e]; cbn [suffix_tokens].
    + apply takes_look_r; [apply takes_look_r; [apply takes_ret|]|]; intros rest (x & tl & -> & _); reflexivity.
    + apply takes_look_l; [|reflexivity]. apply takes_t. apply takes_any.
      destruct Ws as (N & F).
      eapply (takes_bind_g _ _ _ _ _ _ _ [K ")"] (fun ts => exists tl, ts = K ")" :: tl)).
      * apply (takes_commas false n _ _ _ _ closed); try easy.
        -- intros a M. apply takes_argument. eapply Forall_forall; eauto.
        -- intros rest. apply closed_cons; auto with closers.
        -- intros rest (tl & ->). split; [reflexivity|]. apply closed_cons; auto with closers.
      * apply takes_t, takes_ret.
      * cbn [app]. eauto.
    + apply takes_look_r; [|reflexivity]. apply takes_look_l; [|reflexivity]. apply takes_t.
      destruct Ws as (Ge & s & w & ->). intros k rest r L (x & tl & -> & En) HK E. unfold pbind. rewrite <- app_assoc in *. cbn [app] in *.
      apply (reads_back e Ge); [apply admits_0|exact L| |].
      * right. exists x, tl. split; [reflexivity|]. split.
        -- intros e2 t2 rest2 r2 E2 P. apply tok_inv in P as (rest3 & -> & _). eapply no_gt; eauto.
        -- intros e2 rest2 L2 P. revert P. apply (quiet_tok ">" (S (List.length rest2))); [lia|].
           intros [] rest3 L3. unfold pret. apply (HK eq_refl). len.
      * intros m' L'. rewrite follow_stops.
        -- cbn [tok]. cbn [String.eqb Ascii.eqb Bool.eqb]. exact E.
        -- right. exists x, tl. split; [reflexivity|]. split.
           ++ intros e2 t2 rest2 r2 E2 P. apply tok_inv in P as (rest3 & -> & _). eapply no_gt; eauto.
           ++ intros e2 rest2 L2 P. revert P. apply (quiet_tok ">" (S (List.length rest2))); [lia|].
              intros [] rest3 L3. unfold pret. apply (HK eq_refl). len.
        -- exact L'.
  - intros rest (x & tl & -> & _). destruct sf as [|l|e]; cbn [suffix_tokens app].
    + split; [reflexivity|left; reflexivity].
    + split; [reflexivity|left; reflexivity].
    + split; [reflexivity|right; tauto].
Qed.
Definition stops : list token -> Prop := fun ts => exists s tl, ts = K s :: tl /\ In s ["="; "if"; ":"; ";"; "{"; "sql"]%string.
Lemma takes_range {R} b n x : opt_wf (opt_wf grouped) x ->
  takes b n (opt (la "[") (tok "[" ;; let%p e := opt la_expr (expression n 0) in tok "]" ;; pret e) : parser R (option (option pexpr))) x
    (range_tokens x) (not_in ["["%string]).
Proof.
  intros W. replace (range_tokens x) with (opt_tokens (fun e => K "[" :: opt_tokens expr_tokens e ++ [K "]"]) x)
    by (destruct x as [[e|]|]; reflexivity).
  apply takes_opt; [|intros _ rest H; exact H]. intros e ->. split; [|reflexivity]. apply takes_t.
  eapply takes_bind_g; [apply (takes_opt _ _ _ _ expr_tokens e (fun ts => exists tl, ts = K "]" :: tl))| |].
  - intros a ->. split; [|apply expr_starts]. eapply takes_weaken; [apply takes_expr; exact W|lia|].
    intros rest (tl & ->). apply closed_cons; auto with closers.
  - intros -> rest (tl & ->). reflexivity.
  - apply takes_t, takes_ret.
  - intros rest _. cbn [app]. eauto.
Qed.
Lemma takes_member {R} n m : member_wf m -> takes true n (@member R n) m (member_tokens m) stops.
Proof.
  intros (W & Wr). destruct m as [pk im t x r]. unfold member_tokens, member. cbn [pm_packed pm_implicit pm_inst pm_name pm_range] in *.
  assert (Wt : type_wf (pi_type t)) by apply W.
  eapply (takes_bind_g _ _ _ _ _ _ _ _ (fun ts => pk = false -> not_in ["packed"%string] ts)).
  { apply takes_flag. intros E rest H. now apply H. }
  2:{ intros rest _ _. rewrite <- app_assoc. destruct im; [reflexivity|]. cbn [word app]. rewrite <- app_assoc. now apply la_in_inst. }
  eapply (takes_bind_g _ _ _ _ _ _ _ _ (fun ts => im = false -> not_in ["implicit"%string] ts)).
  { apply takes_flag. intros E rest H. now apply H. }
  2:{ intros rest _ _. rewrite <- app_assoc. now apply la_in_inst. }
  eapply (takes_bind _ _ _ _ _ _ _ _ at_name); [now apply takes_inst| | |].
  - intros _ y. apply quiet_bind0; [quiet0|]. intros. apply quiet_bind0; [|intros; quiet0].
    apply quiet_opt. apply quiet_bind0; [quiet0|]. intros. apply quiet_bind0; [apply quiet_opt; apply quiet_expr0|]. intros. quiet0.
  - apply takes_i. rewrite <- (app_nil_r (range_tokens r)). eapply takes_bind_g; [now apply takes_range|apply takes_ret|].
    intros rest (s & tl & -> & M). cbn [In] in M. destruct M as [<-|[<-|[<-|[<-|[<-|[<-|[]]]]]]]; reflexivity.
  - intros rest (s & tl & -> & M). cbn [app]. exists x, (range_tokens r ++ K s :: tl). split; [reflexivity|].
    exists r, s, tl. auto.
Qed.
Lemma takes_behind {R} b n s x (G : list token -> Prop) : opt_wf grouped x ->
  (forall rest, G rest -> not_in [s] rest /\ closed rest) ->
  takes b n (opt (la s) (tok s ;; expression n 0) : parser R (option pexpr)) x (behind s x) G.
Proof.
  intros W H. replace (behind s x) with (opt_tokens (fun e => K s :: expr_tokens e) x) by (destruct x; reflexivity).
  apply takes_opt.
  - intros e ->. split; [|intros; cbn; now rewrite String.eqb_refl]. apply takes_t.
    eapply takes_weaken; [apply takes_expr; exact W|lia|]. intros rest Hr. apply H, Hr.
  - intros -> rest Hr. apply H, Hr.
Qed.
Lemma takes_tail {R} n f : member_wf (pf_member f) -> opt_wf grouped (pf_init f) -> opt_wf grouped (pf_clause f) ->
  opt_wf grouped (pf_constraint f) ->
  takes true n (@field_tail R n (pf_align f) (pf_offset f)) f (tail_tokens f) any.
Proof.
  intros Wm Wi Wc Wk. destruct f as [al off ex op m i c con].
  unfold tail_tokens, field_tail. cbn [pf_align pf_offset pf_extend pf_optional pf_member pf_init pf_clause pf_constraint] in *.
  assert (Wt : type_wf (pi_type (pm_inst m))) by apply Wm.
  eapply (takes_bind_g _ _ _ _ _ _ _ _ (fun ts => ex = false -> not_in ["extend"%string] ts)).
  { apply takes_flag. intros E rest H. now apply H. }
  2:{ intros rest _ _. rewrite <- app_assoc. destruct op; [reflexivity|]. cbn [word app]. rewrite <- app_assoc. now apply la_in_member. }
  eapply (takes_bind_g _ _ _ _ _ _ _ _ (fun ts => op = false -> not_in ["optional"%string] ts)).
  { apply takes_flag. intros E rest H. now apply H. }
  2:{ intros rest _ _. rewrite <- app_assoc. now apply la_in_member. }
  eapply (takes_bind _ _ _ _ _ _ _ _ stops); [now apply takes_member| | |].
  - intros _ y. unfold constraint. do 3 (apply quiet_bind0; [apply quiet_behind|]; intros ?). quiet0.
  - eapply (takes_bind_g _ _ _ _ _ _ _ _ (fun ts => exists s tl, ts = K s :: tl /\ In s ["if"; ":"; ";"]%string)).
    { apply takes_behind; [exact Wi|]. intros rest (s & tl & -> & M). cbn [In] in M.
      destruct M as [<-|[<-|[<-|[]]]]; (split; [reflexivity|apply closed_cons; auto with closers]). }
    2:{ intros rest _. destruct c, con; cbn [behind app]; eexists _, _; (split; [reflexivity|cbn; tauto]). }
    eapply (takes_bind_g _ _ _ _ _ _ _ _ (fun ts => exists s tl, ts = K s :: tl /\ In s [":"; ";"]%string)).
    { apply takes_behind; [exact Wc|]. intros rest (s & tl & -> & M). cbn [In] in M.
      destruct M as [<-|[<-|[]]]; (split; [reflexivity|apply closed_cons; auto with closers]). }
    2:{ intros rest _. destruct con; cbn [behind app]; eexists _, _; (split; [reflexivity|cbn; tauto]). }
    eapply (takes_bind_g _ _ _ _ _ _ _ [K ";"] (fun ts => exists tl, ts = K ";" :: tl)).
    { apply takes_behind; [exact Wk|]. intros rest (tl & ->). split; [reflexivity|apply closed_cons; auto with closers]. }
    2:{ intros rest _. cbn [app]. eauto. }
    apply takes_t, takes_ret.
  - intros rest _. pose proof (tail_starts (PField al off ex op m i c con) rest) as (s & tl & E & M).
    exists s, tl. split; [|exact M]. rewrite <- E. reflexivity.
Qed.
Lemma takes_align {R} b n x : opt_wf grouped x ->
  takes b n (opt (la "align") (tok "align" ;; tok "(" ;; let%p e := expression n 0 in tok ")" ;; tok ":" ;; pret e) : parser R (option pexpr)) x
    (align_tokens x) (not_in ["align"%string]).
Proof.
  intros W. replace (align_tokens x) with (opt_tokens (fun e => K "align" :: K "(" :: expr_tokens e ++ [K ")"; K ":"]) x)
    by (destruct x; reflexivity).
  apply takes_opt; [|intros _ rest H; exact H]. intros e ->. split; [|reflexivity]. do 2 apply takes_t.
  eapply (takes_bind_g _ _ _ _ _ _ _ [K ")"; K ":"]); [now apply takes_expr|do 2 apply takes_t; apply takes_ret|].
  intros rest _. apply closed_cons; auto with closers.
Qed.
Lemma tail_first l f rest : type_wf (pi_type (pm_inst (pf_member f))) ->
  forallb (fun s => negb (existsb (String.eqb s) l)) ("extend"%string :: "optional"%string :: "packed"%string :: "implicit"%string :: bit_types ++ plain_types) = true ->
  not_in l (tail_tokens f ++ rest).
Proof.
  intros W H. cbn [forallb] in H. apply andb_prop in H as (H1 & H). apply andb_prop in H as (H2 & H).
  apply negb_true_iff in H1, H2. unfold tail_tokens.
  destruct (pf_extend f); [exact H1|]. destruct (pf_optional f); [exact H2|]. cbn [word app]. rewrite <- app_assoc.
  now apply la_in_member.
Qed.
Lemma field_split f : field_tokens f = align_tokens (pf_align f) ++ offset_tokens (pf_offset f) ++ tail_tokens f.
Proof. reflexivity. Qed.
Lemma takes_field {R} n f : field_wf f -> takes true n (@field R n) f (field_tokens f) any.
Proof.
  intros (Wa & Wo & Wm & Wi & Wc & Wk & HC). rewrite field_split. unfold field.
  assert (Wt : type_wf (pi_type (pm_inst (pf_member f)))) by apply Wm.
  eapply (takes_bind_g _ _ _ _ _ _ _ _ (not_in ["align"%string])); [now apply takes_align| |].
  - destruct (pf_offset f) as [e|] eqn:EO; cbn [offset_tokens app].
    + (* with an offset *)
      assert (T : takes true n (let%p e0 := expression n 0 in tok ":" ;; @field_tail R n (pf_align f) (Some e0)) f
                    ((expr_tokens e ++ [K ":"]) ++ tail_tokens f) any).
      { rewrite <- app_assoc. eapply (takes_bind_g _ _ _ _ _ _ _ (K ":" :: tail_tokens f)); [now apply takes_expr| |].
        - apply takes_t. rewrite <- EO. now apply takes_tail.
        - intros rest _. apply closed_cons; auto with closers. }
      intros k rest r L HG HK E. unfold predict. rewrite (T k rest r L HG HK E). reflexivity.
    + (* without *)
      intros k rest r L HG HK E. unfold predict.
      assert (T : field_tail n (pf_align f) None k (tail_tokens f ++ rest) = Parsed r).
      { rewrite <- EO. apply (takes_tail n); auto. }
      match goal with |- match ?p with _ => _ end = _ => destruct p as [r'| |] eqn:X end; [|exact T|].
      * exfalso. unfold pbind in X. apply (expression_as n 0) in X as (e & r1 & E1 & _ & X).
        apply tok_inv in X as (r2 & -> & X). apply field_tail_as in X as (g & r3 & -> & (_ & _ & Wg) & _).
        eapply not_offset; [apply Wm|exact Wg| |exact E1]. intros c Hc TT. now apply HC.
      * exfalso. revert X. apply (quiet_bind1 _ _ n (expression_quiet n 0)); [|exact L|].
        -- intros a. apply quiet_bind0; [quiet0|]. intros _. apply quiet_0, quiet_tail.
        -- intros a rest' L'. apply (HK eq_refl). lia.
  - intros rest _. destruct (pf_offset f) as [e|]; cbn [offset_tokens app].
    + rewrite <- !app_assoc. apply la_in_expr. reflexivity.
    + now apply tail_first.
Qed.
Lemma field_starts f rest : field_wf f -> la_field (field_tokens f ++ rest) = true.
Proof.
  intros (Wa & Wo & Wm & _). rewrite field_split. unfold la_field. destruct (pf_align f); [reflexivity|]. cbn [align_tokens app].
  destruct (pf_offset f) as [e|]; cbn [offset_tokens].
  - rewrite <- !app_assoc. rewrite expr_starts. now rewrite orb_true_r.
  - cbn [app]. unfold tail_tokens. destruct (pf_extend f); [reflexivity|]. destruct (pf_optional f); [reflexivity|].
    cbn [word app]. rewrite <- app_assoc. rewrite member_starts by apply Wm. now rewrite !orb_true_r.
Qed.
Lemma field_not_nil f : field_wf f -> field_tokens f <> [].
Proof. intros W E. pose proof (field_starts f [] W) as H. rewrite E in H. discriminate. Qed.
