(** Proofs about the traits of generated types, part 3: examples. *)
From Coq Require Import ZArith List Bool String Ascii Lia Permutation.
From Verif Require Import M_Base P_Base M_Expr M_Pkg M_Print M_Mod S_Mod P_Mod P_Visit2 M_Visit M_Item S_Item P_Item P_Item2 P_Item3 X_Item S_Trait P_Trait P_Trait2 X_Trait.
Import ListNotations.
Open Scope Z_scope.
Local Open Scope list_scope.

Lemma word_ok s : match s with ""%string => false | _ => forallb (fun c => negb (Ascii.eqb c ":" || Ascii.eqb c "<" || Ascii.eqb c ">")%char) (chars s) end = true -> word s.
Proof.
  intros H. split; [destruct s; discriminate|]. intros c I.
  assert (F : forallb (fun c => negb (Ascii.eqb c ":" || Ascii.eqb c "<" || Ascii.eqb c ">")%char) (chars s) = true)
    by (destruct s; [discriminate|exact H]).
  rewrite forallb_forall in F. specialize (F c I). repeat split; intros ->; cbn in F; discriminate.
Qed.

Theorem trait_case : exists fs,
  gen_model xi_env Debug (fun l => l) xt_pkgs = Ok fs
  /\ apart xi_env xt_pkgs
  /\ (forall pkg z, In (pkg, z) (all_decls xt_pkgs) -> ~ instantiates z)
  /\ writable xi_env (all_decls xt_pkgs)
  /\ (forall pkg z, In (pkg, z) (all_decls xt_pkgs) -> decl_known xi_env (all_decls xt_pkgs) z
        /\ funs_known (all_decls xt_pkgs) z)
  /\ (forall a, In a (all_decls xt_pkgs) -> Acc (inside (all_decls xt_pkgs)) a)
  /\ (forall a, Acc (subtype_of (all_decls xt_pkgs)) a)
  /\ (forall pkg z, In (pkg, z) (all_decls xt_pkgs) -> peopled z)
  /\ In ("tree"%string, xt_node) (all_decls xt_pkgs).
Proof.
  assert (AD : all_decls xt_pkgs = [("tree", xt_node); ("tree", xt_leaf); ("tree", xt_root);
     ("tree", xi_kind); ("tree", xi_flags)]%string) by reflexivity.
  assert (LEAF : forall a, held (snd a) = [] \/ held (snd a) = [xi_b "uint8" 0; xi_b "string" 0] ->
    Acc (inside (all_decls xt_pkgs)) a).
  { intros a H. constructor. intros x (_ & _ & t & T & (? & ? & ? & ? & ->)). destruct H as [H|H]; rewrite H in T; cbn in T;
      [destruct T|destruct T as [T|[T|[]]]; discriminate]. }
  assert (NODE : Acc (inside (all_decls xt_pkgs)) ("tree"%string, xt_node)).
  { constructor. intros [p x] (I & _ & t & T & (? & ? & ? & ? & E)). rewrite AD in I.
    repeat (destruct I as [I|I]; [injection I as <- <-; first [apply LEAF; cbn; tauto|exfalso]|]); [..|destruct I];
    cbn in T, E; subst t; cbn in T; intuition discriminate. }
  eexists. split; [vm_compute; reflexivity|]. split; [|split; [|split; [|split; [|split; [|split; [|split]]]]]].
  - repeat split.
    + intros n s [<-|[]]; cbn; intuition (subst; discriminate).
    + cbn. repeat constructor; cbn; intuition discriminate.
    + intros n p m q I J (x & r & E). destruct I as [I|[]], J as [J|[]]; injection I as <- _; injection J as <- _;
        cbn in E; try discriminate; injection E; intros; try discriminate.
    + intros n p [I|[]]; injection I as <- _; cbn; discriminate.
    + destruct H as [H|[]]; injection H as <- <-; cbn; repeat constructor; cbn; intuition discriminate.
    + destruct H as [H|[]]; injection H as <- <-; cbn; intuition discriminate.
  - rewrite AD. intros pkg z I (n & t & ->). repeat (destruct I as [I|I]; [discriminate I|]). destruct I.
  - rewrite AD. intros a I. apply Forall_forall. intros s S. apply word_ok.
    repeat (destruct I as [<-|I]; [cbn in S; repeat (destruct S as [<-|S]; [vm_compute; reflexivity|]); destruct S|]).
    destruct I.
  - rewrite AD. intros pkg z I.
    repeat (destruct I as [I|I]; [injection I as <- <-|]); [..|destruct I]; (split; [|try exact Logic.I]).
    + cbn [decl_known xt_node]. split; repeat constructor; cbn.
      * exists xi_kind. split; [tauto|]. split; [reflexivity|discriminate].
      * exists xt_node. split; [tauto|]. split; [reflexivity|discriminate].
      * exists xt_leaf. split; [tauto|]. split; [reflexivity|discriminate].
      * exists xi_flags. split; [tauto|]. split; [reflexivity|discriminate].
    + cbn. repeat constructor; cbn; lia.
    + cbn [decl_known xt_leaf]. split; repeat constructor; cbn; lia.
    + cbn. constructor.
    + cbn. exists xt_node. split; [tauto|]. split; [reflexivity|discriminate].
    + cbn. intros vs V. apply ok_inj in V. now subst.
    + cbn. split; [intros u U; apply ok_inj in U; subst u; cbn; lia|]. intros vs V. apply ok_inj in V. now subst.
  - intros a I. rewrite AD in I.
    repeat (destruct I as [<-|I]; [first [exact NODE|apply LEAF; cbn; tauto|idtac]|]); [|destruct I].
    constructor. intros [p x] (I & _ & t & T & (? & ? & ? & ? & E)). rewrite AD in I.
    repeat (destruct I as [I|I]; [injection I as <- <-; first [exact NODE|exfalso; cbn in T, E; subst t; cbn in T; intuition discriminate]|]).
    destruct I.
  - assert (X : forall y, ~ (exists n t, snd y = ZSubtype n t /\ exists a, names t a) -> Acc (subtype_of (all_decls xt_pkgs)) y).
    { intros y N. constructor. intros x (_ & _ & n & t & E & M). destruct N. exists n, t. eauto. }
    intros a. constructor. intros y (I & _). rewrite AD in I.
    repeat (destruct I as [<-|I]; [try (apply X; intros (? & ? & E & _); discriminate)|]); [|destruct I].
    constructor. intros x (I & _ & n & t & E & M). injection E as <- <-. destruct M as (? & ? & ? & ? & M). rewrite AD in I.
    repeat (destruct I as [<-|I]; [first [apply X; intros (? & ? & E & _); discriminate|cbn in M; discriminate]|]). destruct I.
  - rewrite AD. intros pkg z I.
    repeat (destruct I as [I|I]; [injection I as <- <-; cbn; first [exact Logic.I|discriminate]|]). destruct I.
  - rewrite AD. now left.
Qed.

Theorem cell_case : exists fs f k targs args len,
  gen_model xi_env Debug (fun l => l) xt_list = Ok fs
  /\ apart xi_env xt_list
  /\ (forall pkg z, In (pkg, z) (all_decls xt_list) -> ~ instantiates z)
  /\ writable xi_env (all_decls xt_list)
  /\ (forall pkg z, In (pkg, z) (all_decls xt_list) -> decl_known xi_env (all_decls xt_list) z)
  /\ In ("list"%string, xt_cell) (all_decls xt_list)
  /\ (exists nm tps ps fl gs, xt_cell = ZStruct nm tps ps fl gs /\ In f fl
      /\ zf_type f = ZType false "list" nm k targs args len)
  /\ zf_array f = None /\ zf_optional f = true.
Proof.
  assert (AD : all_decls xt_list = [("list", xt_cell)]%string) by reflexivity.
  eexists. exists (xi_f "next" true (xi_r "list" "Cell") false), 0, [], [], None.
  split; [vm_compute; reflexivity|]. split; [|split; [|split; [|split; [|split; [|split; [|split]]]]]].
  - repeat split.
    + intros n s [<-|[]]; cbn; intuition (subst; discriminate).
    + cbn. repeat constructor; cbn; intuition discriminate.
    + intros n p m q I J (x & r & E). destruct I as [I|[]], J as [J|[]]; injection I as <- _; injection J as <- _;
        cbn in E; try discriminate; injection E; intros; try discriminate.
    + intros n p [I|[]]; injection I as <- _; cbn; discriminate.
    + destruct H as [H|[]]; injection H as <- <-; cbn; repeat constructor; cbn; intuition discriminate.
    + destruct H as [H|[]]; injection H as <- <-; cbn; intuition discriminate.
  - rewrite AD. intros pkg z I (n & t & ->). repeat (destruct I as [I|I]; [discriminate I|]). destruct I.
  - rewrite AD. intros a I. apply Forall_forall. intros s S. apply word_ok.
    destruct I as [<-|[]]; cbn in S; repeat (destruct S as [<-|S]; [vm_compute; reflexivity|]). destruct S.
  - rewrite AD. intros pkg z [I|[]]. injection I as <- <-. cbn [decl_known xt_cell]. split; repeat constructor; cbn; try lia.
    exists xt_cell. split; [tauto|]. split; [reflexivity|discriminate].
  - rewrite AD. now left.
  - do 5 eexists. split; [reflexivity|]. split; [cbn; tauto|reflexivity].
  - reflexivity.
  - reflexivity.
Qed.

Theorem void_case : exists fs,
  gen_model xi_env Debug (fun l => l) xt_none = Ok fs
  /\ apart xi_env xt_none
  /\ (forall pkg z, In (pkg, z) (all_decls xt_none) -> ~ instantiates z)
  /\ writable xi_env (all_decls xt_none)
  /\ In ("none"%string, xt_void) (all_decls xt_none)
  /\ exists nm tps ps gs, xt_void = ZUnion nm tps ps [] gs.
Proof.
  assert (AD : all_decls xt_none = [("none", xt_void)]%string) by reflexivity.
  eexists. split; [vm_compute; reflexivity|]. split; [|split; [|split; [|split]]].
  - repeat split.
    + intros n s [<-|[]]; cbn; intuition (subst; discriminate).
    + cbn. repeat constructor; cbn; intuition discriminate.
    + intros n p m q I J (x & r & E). destruct I as [I|[]], J as [J|[]]; injection I as <- _; injection J as <- _;
        cbn in E; try discriminate; injection E; intros; try discriminate.
    + intros n p [I|[]]; injection I as <- _; cbn; discriminate.
    + destruct H as [H|[]]; injection H as <- <-; cbn; repeat constructor; cbn; intuition discriminate.
    + destruct H as [H|[]]; injection H as <- <-; cbn; intuition discriminate.
  - rewrite AD. intros pkg z I (n & t & ->). repeat (destruct I as [I|I]; [discriminate I|]). destruct I.
  - rewrite AD. intros a I. apply Forall_forall. intros s S. apply word_ok.
    destruct I as [<-|[]]; cbn in S; repeat (destruct S as [<-|S]; [vm_compute; reflexivity|]). destruct S.
  - rewrite AD. now left.
  - do 4 eexists. reflexivity.
Qed.
