(** A schema and the values of its names, for the cases beside C60. *)
From Coq Require Import ZArith List Bool String Lia.
From Verif Require Import M_Base M_Bits M_Expr M_Print S_Expr S_Print S_Rust S_Rust2.
From Verif Require Import P_Base P_Rust P_Rust2 P_Rust3 P_Rust4.
Import ListNotations.
Open Scope Z_scope.

(** ** A schema and values of its names *)

(** Fields [a : uint8 = 5], [b : uint32 = 70000], [i : int16 = -3], [t : bool = true],
    an array of three elements. *)
Definition u8 := native "uint8".
Definition u32 := native "uint32".
Definition i16 := native "int16".
Definition fields : list (string * sym) :=
  [("a", SyField u8); ("b", SyField u32); ("i", SyField i16); ("t", SyField (native "bool"))]%string.
Definition ex_sc : scope := Scope (fun n _ => assoc fields n) (fun _ _ => None) (fun _ _ => None).
Definition held : list (string * (rty * val)) :=
  [("a", (RTInt false 8, VI 5)); ("b", (RTInt false 32, VI 70000));
   ("i", (RTInt true 16, VI (-3))); ("t", (RTBool, VB true))]%string.
Definition ex_env : renv := fun g =>
  match g with
  | RField (RAtom "self") n => assoc held n
  | RCall (RField _ f) [] => if String.eqb f "len" then Some (RTSize, VI 3) else None
  | _ => None
  end.
Definition ex_rho : valuation := fun e =>
  match e with
  | EId n => match assoc held n with Some (_, v) => Some v | None => None end
  | ELengthof _ => Some (VI 3)
  | _ => None
  end.
Definition name (n : string) : expr := EId n.
Definition num (z : Z) : expr := ELit (LInt z).

(** In this schema names stand for simple values only. *)
Definition simple (r : ev) : Prop :=
  match e_rt r with TInt _ | TBool _ | TFloat _ | TString _ | TOther => True | _ => False end.
Lemma ex_simple b e : forall r, eval b 3 ex_sc e = Ok r -> simple r.
Proof.
  induction e; intros r H; cbn [eval] in H.
  - destruct l; apply ok_inj in H as <-; exact I.
  - apply bind_ok in H as (x & Ex & H). apply ok_inj in H as <-. exact (IHe _ Ex).
  - apply bind_ok in H as (x & Ex & H). specialize (IHe _ Ex). unfold simple in IHe.
    destruct (e_rt x); try discriminate; contradiction.
  - apply bind_ok in H as (x & Ex & H). apply bind_ok in H as (y & Ey & H).
    destruct (e_rt x); try discriminate; apply ok_inj in H as <-; exact I.
  - apply bind_ok in H as (x & Ex & H). specialize (IHe _ Ex). unfold simple in IHe. unfold eval_dot in H.
    destruct (e_rt x); try discriminate; contradiction.
  - apply bind_ok in H as (x & Ex & H). apply bind_ok in H as (y & Ey & H).
    destruct (e_rt x); try discriminate; destruct (e_rt y); try discriminate; apply ok_inj in H as <-; exact I.
  - apply bind_ok in H as (x & Ex & H). apply ok_inj in H as <-. exact I.
  - apply bind_ok in H as (x & Ex & H). destruct (e_rt x); try discriminate; apply ok_inj in H as <-; exact I.
  - apply bind_ok in H as (x & Ex & H). destruct (e_rt x); try discriminate.
    apply bind_ok in H as (n & _ & H). apply ok_inj in H as <-. exact I.
  - apply bind_ok in H as (x & Ex & H). unfold eval_un in H.
    destruct o; destruct (e_rt x); try discriminate;
      try (apply bind_ok in H as (n & _ & H)); apply ok_inj in H as <-; exact I.
  - apply bind_ok in H as (x & Ex & H). apply bind_ok in H as (y & Ey & H).
    destruct (is_arith o); [|destruct (is_cmp o); [|destruct (is_bitwise o)]].
    + unfold eval_arith in H. destruct (e_rt x); try discriminate; destruct (e_rt y); try discriminate;
        try (apply bind_ok in H as (n & _ & H); apply bind_ok in H as (n' & _ & H));
        try (destruct o; try discriminate); apply ok_inj in H as <-; exact I.
    + unfold eval_cmp in H.
      repeat match type of H with
             | match ?c with _ => _ end = Ok _ => destruct c; try discriminate
             end; apply ok_inj in H as <-; exact I.
    + unfold eval_bitwise in H.
      destruct (e_rt x); try discriminate; destruct (e_rt y); try discriminate;
        try (apply bind_ok in H as (n & _ & H)); apply ok_inj in H as <-; exact I.
    + unfold eval_logical in H.
      destruct (e_rt x); try discriminate; destruct (e_rt y); try discriminate;
        destruct o; try discriminate; apply ok_inj in H as <-; exact I.
  - apply bind_ok in H as (z & Ez & H). apply bind_ok in H as (x & Ex & H). apply bind_ok in H as (y & Ey & H).
    destruct (e_rt z); try discriminate. apply ok_inj in H as <-.
    match goal with |- simple (Ev (e_rt (if ?c then _ else _)) _ _ _) => destruct c end;
      [exact (IHe2 _ Ex)|exact (IHe3 _ Ey)].
  - apply ok_inj in H as <-. exact I.
  - unfold ex_sc, fields in H. cbn [sc_resolve assoc] in H.
    repeat match type of H with
           | context[String.eqb ?n ?k] => destruct (String.eqb n k)
           end; try discriminate; cbn in H; apply ok_inj in H as <-; exact I.
Qed.

(** Only names are integers or booleans. *)
Lemma ex_leaf b e r : schema_leaf e = true -> eval b 3 ex_sc e = Ok r ->
  (exists m v, e_rt r = TInt v /\ e_nt r = Some (native m)) \/ (exists v, e_rt r = TBool v) ->
  e = EId "a" /\ e_rt r = TInt 0 /\ e_nt r = Some u8 \/ e = EId "b" /\ e_rt r = TInt 0 /\ e_nt r = Some u32
  \/ e = EId "i" /\ e_rt r = TInt 0 /\ e_nt r = Some i16 \/ e = EId "t" /\ e_rt r = TBool false.
Proof.
  intros SL H K. destruct e; try discriminate; cbn [eval] in H.
  - apply bind_ok in H as (x & Ex & H). apply ex_simple in Ex. unfold simple in Ex.
    destruct (e_rt x); try discriminate; contradiction.
  - apply bind_ok in H as (x & Ex & H). apply bind_ok in H as (y & Ey & H).
    destruct (e_rt x); try discriminate; apply ok_inj in H as <-;
    destruct K as [(m & v1 & K & _)|(v1 & K)]; discriminate.
  - apply bind_ok in H as (x & Ex & H). apply ex_simple in Ex. unfold simple in Ex. unfold eval_dot in H.
    destruct (e_rt x); try discriminate; contradiction.
  - apply ok_inj in H as <-. destruct K as [(m & v1 & _ & K)|(v1 & K)]; discriminate.
  - unfold ex_sc, fields in H. cbn [sc_resolve assoc] in H.
    repeat match type of H with
           | context[String.eqb ?n ?k] => destruct (String.eqb_spec n k); [subst n|]
           end; try discriminate; cbn in H; apply ok_inj in H as <-; cbn; tauto.
Qed.

Definition no_names : expr -> option rty := fun _ => None.
Lemma ex_declares b : declares b 3 ex_sc no_names ex_env ex_rho.
Proof.
  split; [|split; [|split; [|split]]].
  - intros e m s w z [SL (r & v & E & RT & NT)] RI VZ.
    destruct (ex_leaf b e r SL E) as [(-> & A & B)|[(-> & A & B)|[(-> & A & B)|(-> & A)]]].
    { left. eauto. }
    + rewrite NT in B. injection B as ->. injection RI as <- <-. injection VZ as <-. reflexivity.
    + rewrite NT in B. injection B as ->. injection RI as <- <-. injection VZ as <-. reflexivity.
    + rewrite NT in B. injection B as ->. injection RI as <- <-. injection VZ as <-. reflexivity.
    + rewrite RT in A. discriminate.
  - intros e z [SL (r & v & E & RT)] VZ.
    destruct (ex_leaf b e r SL E) as [(-> & A & B)|[(-> & A & B)|[(-> & A & B)|(-> & A)]]].
    { right. eauto. }
    1,2,3: rewrite RT in A; discriminate.
    injection VZ as <-. reflexivity.
  - intros e r n _ V. injection V as <-. reflexivity.
  - intros e u z (_ & N & _). discriminate N.
  - intros e n m s w z (_ & (s' & w' & _ & N) & _). discriminate N.
Qed.

Lemma ex_well_typed : well_typed ex_env.
Proof.
  intros g t v H. unfold ex_env, held in H. destruct g; try discriminate.
  - destruct g; try discriminate. cbn [assoc] in H.
    repeat match type of H with
           | match ?c with _ => _ end = Some _ => destruct c; try discriminate
           end; injection H as <- <-; (split; [cbn; tauto|]);
      first [exists true; reflexivity | eexists; split; reflexivity].
  - destruct g; try discriminate. destruct args; try discriminate.
    destruct (String.eqb _ "len"); [|discriminate]. injection H as <- <-.
    split; [cbn; tauto|]. eexists; split; reflexivity.
Qed.

(** Trees that are read from the surroundings. *)
Lemma ex_tree_field b e g n : tree b 3 ex_sc e = RField g n ->
  exists s, assoc fields n = Some s.
Proof.
  destruct e; cbn [tree]; try discriminate.
  - destruct (eval b 3 ex_sc e) as [x| | |] eqn:E; try discriminate.
    apply ex_simple in E. unfold simple in E. destruct (e_rt x); try discriminate; contradiction.
  - destruct (is_arith o); [|discriminate].
    repeat match goal with |- context[match ?c with _ => _ end] => destruct c; try discriminate end.
  - unfold ex_sc. cbn [sc_resolve]. destruct (assoc fields name0) as [s|] eqn:A; [|discriminate].
    destruct s; try discriminate; intros H; injection H as _ <-; rewrite A; eauto.
Qed.

Lemma ex_holds b : holds_values b 3 ex_sc ex_env ex_rho.
Proof.
  split; [|split].
  - intros e t v SL H. destruct e; try discriminate; cbn [tree] in H.
    + unfold ex_env in H. destruct (tree b 3 ex_sc e) eqn:E; try discriminate.
      destruct (ex_tree_field _ _ _ _ E) as (s & A).
      destruct (String.eqb_spec n "len"); [|discriminate]. subst n. discriminate.
    + destruct (eval b 3 ex_sc e) as [x| | |] eqn:E; try discriminate.
      apply ex_simple in E. unfold simple in E. destruct (e_rt x); try discriminate; contradiction.
    + unfold ex_sc in H. cbn [sc_resolve] in H. unfold ex_rho.
      destruct (assoc fields name0) as [s|]; [|discriminate].
      destruct s; try discriminate; cbn [ex_env] in H; rewrite H; reflexivity.
  - intros a t v H. cbn [ex_env String.eqb] in H. injection H as _ <-. reflexivity.
  - intros a t v H. discriminate.
Qed.

(** ** Enums and bitmasks *)

(** [c : Color = BLUE], whose number is 1, and [m : Perm], with [READ] (1) and
    [EXEC] (4) set. *)
Definition named_sc : scope :=
  Scope (fun n _ => assoc
    [("m", SyField (TRef false "" "Perm" 0 false)); ("c", SyField (TRef false "" "Color" 0 false));
     ("Color", SyEnum ["RED"; "BLUE"] u8); ("Perm", SyBitmask ["READ"; "WRITE"; "EXEC"] u8)]%string n)
   (fun _ _ => None) (fun _ _ => None).
Definition named : list (expr * rty * rexp * Z) :=
  [(EId "c", RTEnum "Color", RField (RAtom "self") "c", 1);
   (EDot (EId "Color") "BLUE", RTEnum "Color", RAtom "BLUE", 1);
   (EId "m", RTMask "Perm" false 8, RField (RAtom "self") "m", 5);
   (EDot (EId "Perm") "READ", RTMask "Perm" false 8, RAtom "READ", 1)]%string.
Definition named_tau : expr -> option rty := fun e =>
  match e with
  | EId "c" | EDot (EId "Color") "BLUE" => Some (RTEnum "Color")
  | EId "m" | EDot (EId "Perm") "READ" => Some (RTMask "Perm" false 8)
  | _ => None
  end%string.
Definition named_rho : valuation := fun e =>
  match e with
  | EId "c" | EDot (EId "Color") "BLUE" => Some (VI 1)
  | EId "m" => Some (VI 5)
  | EDot (EId "Perm") "READ" => Some (VI 1)
  | _ => None
  end%string.
Definition named_env : renv := fun g =>
  match g with
  | RField (RAtom "self") "c" | RAtom "BLUE" => Some (RTEnum "Color", VI 1)
  | RField (RAtom "self") "m" => Some (RTMask "Perm" false 8, VI 5)
  | RAtom "READ" => Some (RTMask "Perm" false 8, VI 1)
  | RCall (RField (RField (RAtom "self") "m") "bits") [] => Some (RTInt false 8, VI 5)
  | _ => None
  end%string.
Lemma named_known e v : named_rho e = Some v -> exists u g z, In (e, u, g, z) named
  /\ named_tau e = Some u /\ v = VI z.
Proof.
  unfold named_rho, named_tau. intros H.
  repeat match type of H with
  | match ?c with _ => _ end = _ => destruct c; try discriminate H
  end; injection H as <-; do 3 eexists; unfold named;
  (split; [cbn [In]; repeat first [left; reflexivity|right]|split; reflexivity]).
Qed.
Lemma named_declares b : declares b 3 named_sc named_tau named_env named_rho.
Proof.
  split; [|split; [|split; [|split]]].
  - intros e m s w z (SL & r & v & E & RT & NT) RI V. exfalso.
    destruct (named_known _ _ V) as (u & g & z' & N & _).
    destruct N as [N|[N|[N|[N|[]]]]]; injection N as <- <- <- <-; cbn in E; apply ok_inj in E as <-; discriminate.
  - intros e v _ V. destruct (named_known _ _ V) as (u & g & z' & _ & _ & N). discriminate N.
  - intros e r n _ V. discriminate V.
  - intros e u z (_ & TA & _) V. destruct (named_known _ _ V) as (u' & g & z' & N & TA' & VZ).
    rewrite TA' in TA. injection TA as <-. injection VZ as <-.
    destruct N as [N|[N|[N|[N|[]]]]]; injection N as <- <- <- <-; reflexivity.
  - intros e n m s w z (_ & (s' & w' & RI' & TA) & r & l & E & RT & BM) RI V.
    rewrite RI in RI'. injection RI' as <- <-.
    destruct (named_known _ _ V) as (u' & g & z' & N & TA' & VZ).
    rewrite TA' in TA. injection TA as ->. injection VZ as <-.
    destruct N as [N|[N|[N|[N|[]]]]]; try discriminate N; injection N as <- <- <- <- <- <-.
    + reflexivity.
    + cbn in E. apply ok_inj in E as <-. discriminate.
Qed.
Lemma named_well_typed : well_typed named_env.
Proof.
  intros g t v H. unfold named_env in H.
  repeat match type of H with
  | match ?c with _ => _ end = _ => destruct c; try discriminate H
  end; injection H as <- <-; (split; [cbn; tauto|]); cbn; eexists; try split; reflexivity.
Qed.

(** ** Rejected and truncated code *)

Ltac reads_tac := exists 40%nat; vm_compute; reflexivity.
Ltac split_tree x :=
  destruct x; cbn [erase] in *;
  try match goal with H : _ = _ |- _ => discriminate H end;
  repeat match goal with
  | H : RBin _ _ _ = RBin _ _ _ |- _ => injection H; clear H; intros; subst
  | H : RUn _ _ = RUn _ _ |- _ => injection H; clear H; intros; subst
  | H : RCast _ _ = RCast _ _ |- _ => injection H; clear H; intros; subst
  | H : RParen _ = RParen _ |- _ => injection H; clear H; intros; subst
  | H : RIf _ _ _ = RIf _ _ _ |- _ => injection H; clear H; intros; subst
  | H : RLit _ = RLit _ |- _ => injection H; clear H; intros; subst
  end.
Ltac reject :=
  intros x u [EX TX];
  match type of EX with _ = ?t => let t' := eval vm_compute in t in change t with t' in EX end;
  repeat match goal with
  | H : erase ?y = _ |- _ => split_tree y
  end; subst; cbn in TX;
  repeat match type of TX with
  | context[match ?t with RTInt _ _ => _ | RTSize => _ | RTBool => _ | RTEnum _ => _ | RTMask _ _ _ => _ end] =>
      is_var t; destruct t; cbn in TX
  | context[int_of ?t] => is_var t; destruct t; cbn in TX
  | context[if ?c then _ else _] => let q := fresh "Q" in destruct c eqn:q; cbn in TX
  end; try discriminate;
  try (exfalso;
       repeat match goal with
       | H : _ && _ = true |- _ => apply andb_true_iff in H as [? ?]
       | H : Bool.eqb _ _ = true |- _ => apply Bool.eqb_prop in H
       | H : (_ =? _) = true |- _ => apply Z.eqb_eq in H
       end; subst; discriminate).

Lemma not_accepted :
  Forall (fun e => exists r ts,
      eval Debug 3 ex_sc e = Ok r /\ gen Debug 3 ex_sc e = Ok ts /\ grouped e /\ plain e
      /\ rust_reads ts (tree Debug 3 ex_sc e)
      /\ forall x u, ~ accepted ex_env (tree Debug 3 ex_sc e) x u)
    [EBin BLt (name "a") (name "b");
     EUn UMinus (name "a");
     EBin BPlus (name "a") (num 300);
     EBin BPlus (EParen (EBin BAnd (name "a") (num 1))) (name "b");
     ETern (name "t") (name "a") (name "b");
     EBin BGt (EBin BMinus (name "b") (ELengthof (name "a"))) (name "i")].
Proof.
  repeat apply Forall_cons; try apply Forall_nil.
  all: do 2 eexists; (split; [vm_compute; reflexivity|]); (split; [vm_compute; reflexivity|]);
    (split; [cbn; repeat split; lia|]); (split; [cbn; repeat split; auto; discriminate|]); (split; [reads_tac|]).
  - reject.
  - reject.
  - reject. destruct s; [discriminate|]. destruct w as [|w|w]; try discriminate.
    cbn [andb] in Q0. rewrite andb_true_r in Q0. apply Pos.eqb_eq in Q0 as <-. discriminate.
  - reject.
  - reject.
  - reject.
Qed.

Lemma function_truncates : exists ts g x,
  gen_function Debug 3 ex_sc (native "uint8") (name "b") = Ok ts /\ rust_reads ts g
  /\ accepted ex_env g x (RTInt false 8) /\ sem ex_rho (name "b") = Some (VI 70000)
  /\ forall b, run b ex_env x = Ok (VI 112).
Proof.
  eexists. exists (RCast (RParen (RField (RAtom "self") "b")) "u8"),
    (XCast (XParen (XLeaf (RField (RAtom "self") "b"))) "u8").
  split; [vm_compute; reflexivity|]. split; [reads_tac|]. split; [split; vm_compute; reflexivity|].
  split; [reflexivity|]. intros []; vm_compute; reflexivity.
Qed.

Lemma release_wraps : exists ts x,
  let e := EBin BMul (name "a") (num 100) in
  gen Debug 3 ex_sc e = Ok ts /\ rust_reads ts (tree Debug 3 ex_sc e)
  /\ accepted ex_env (tree Debug 3 ex_sc e) x (RTInt false 8)
  /\ sem ex_rho e = Some (VI 500)
  /\ run Debug ex_env x = Panic /\ run Release ex_env x = Ok (VI 244).
Proof.
  eexists. exists (XBin RStar (XLeaf (RField (RAtom "self") "a")) (XLit (LInt 100) (RTInt false 8))).
  cbn zeta. split; [vm_compute; reflexivity|]. split; [reads_tac|].
  split; [split; vm_compute; reflexivity|]. split; [reflexivity|]. split; vm_compute; reflexivity.
Qed.
