(** Property theorems: templates (C47, C48). *)
From Coq Require Import ZArith List Bool String Lia.
From Verif Require Import M_Base M_Expr M_Scope M_Templ S_Templ P_Templ.
Import ListNotations.
Open Scope nat_scope.
Open Scope string_scope.

(** ** C47 *)

(** Uses of templates with the same generated name are written with the same names in
    the same order, if the names involved are such that none is the beginning of
    another. *)
Theorem C47_distinct : forall N t1 t2, prefix_free N ->
  Forall N (spelling t1) -> Forall N (spelling t2) ->
  inst_name t1 = inst_name t2 -> spelling t1 = spelling t2.
Proof. exact inst_name_unique. Qed.
Print Assumptions C47_distinct.

(** Two uses with the same generated name and kind share the definition made for the
    first: the second one adds nothing and refers to it. *)
Theorem C47_shared : forall fuel fuel' ext p st t1 t2 st1 r1 d1 d2,
  instantiate fuel ext p st t1 "" = Ok (st1, r1) -> t_targs t1 <> [] ->
  found ext st (t_name t1) d1 ->
  t_targs t2 <> [] -> found ext st1 (t_name t2) d2 ->
  d_kind d2 = d_kind d1 -> List.length (d_tparams d2) = List.length (t_targs t2) ->
  inst_name t2 = inst_name t1 ->
  exists x, lookup st1 (d_kind d1) (inst_name t1) = Some x
    /\ instantiate (S fuel') ext p st1 t2 "" = Ok (st1, type_in p (inst_name t1) (t_args t2)).
Proof. exact instantiate_shared. Qed.
Print Assumptions C47_shared.

Definition templ (n : string) (args : list ty) : ty := Ty false "" n 0 args [] None.
Definition bits_ty (w : N) : ty := Ty true "" "bit" (Z.of_N w) [] [] None.

(** struct A<T> { T a; }  struct AB<T> { T a; T b; } *)
Definition d_A : decl := Decl DStruct ["T"] [] [("a", named "T")] [].
Definition d_AB : decl := Decl DStruct ["T"] [] [("a", named "T"); ("b", named "T")] [].
Definition no_ext : string -> res decl := fun _ => Panic.
Definition st_A : state := St [] [("A", Some d_A); ("AB", Some d_AB)].

Example C47_distinct_case :
  prefix_free (fun n => In n ["A"; "B"; "C"])
  /\ inst_name (templ "A" [named "B"]) <> inst_name (templ "A" [named "C"]).
Proof.
  split; [|discriminate]. split.
  - intros x [<-|[<-|[<-|[]]]]; discriminate.
  - intros x y z [<-|[<-|[<-|[]]]] [<-|[<-|[<-|[]]]]; cbn; congruence.
Qed.

(** So different uses of templates are served with the same definition: [A<BC>] and
    [AB<C>]; [A<bit:3>] and [A<bit:5>]; [A<A<X>>] and [A<A<Y>>]; [A<p.X>] and [A<q.X>].
    In each case the second use gets the type made for the first. *)
Definition pairs : list (ty * ty) :=
  [ (templ "A" [named "BC"], templ "AB" [named "C"]);
    (templ "A" [bits_ty 3], templ "A" [bits_ty 5]);
    (templ "A" [templ "A" [named "X"]], templ "A" [templ "A" [named "Y"]]);
    (templ "A" [Ty false "p" "X" 0 [] [] None], templ "A" [Ty false "q" "X" 0 [] [] None]) ].
Theorem C47_refuted : forall t1 t2, In (t1, t2) pairs ->
  t1 <> t2 /\
  exists st1 r x, instantiate 5 no_ext "p" st_A t1 "" = Ok (st1, r)
    /\ instantiate 5 no_ext "p" st1 t2 "" = Ok (st1, r)
    /\ lookup st_A DStruct (t_name r) = None /\ lookup st1 DStruct (t_name r) = Some x
    /\ map fst (d_fields x) = ["a"].
Proof.
  intros t1 t2 [H|[H|[H|[H|[]]]]]; injection H as <- <-;
    (split; [discriminate|]);
    (eexists; eexists; eexists; split; [vm_compute; reflexivity|];
     split; [vm_compute; reflexivity|]; split; [vm_compute; reflexivity|];
     split; [vm_compute; reflexivity|reflexivity]).
Qed.
Print Assumptions C47_refuted.

(** ** C48 *)

(** In a new instantiation, every type of a field, function or (except in choices)
    parameter is the type written in the template with the arguments substituted for
    the parameters. *)
Theorem C48_substituted : forall fuel ext p st t name st' r d,
  instantiate fuel ext p st t name = Ok (st', r) -> t_targs t <> [] ->
  found ext st (t_name t) d ->
  lookup st (d_kind d) (final_name t name) = None ->
  NoDup (d_tparams d) -> Forall no_args (t_targs t) ->
  Forall (fun f => shallow (d_tparams d) (snd f)) (d_fields d) ->
  Forall (fun f => simple (snd f)) (d_params d ++ d_funs d) ->
  let s := param_env d p (t_targs t) in
  r = type_in p (final_name t name) (t_args t) /\
  exists d', lookup st' (d_kind d) (final_name t name) = Some d'
    /\ d_kind d' = d_kind d /\ d_tparams d' = []
    /\ d_fields d' = map (on_type (fun t => used_as p (tsubst s t))) (d_fields d)
    /\ d_funs d' = map (on_type (tsubst s)) (d_funs d)
    /\ (d_kind d <> DChoice -> d_params d' = map (on_type (tsubst s)) (d_params d))
    /\ (d_kind d = DChoice -> Forall (fun f => ~ In (fst f) (d_tparams d)) (d_params d) ->
        d_params d' = d_params d).
Proof. exact instantiate_subst. Qed.
Print Assumptions C48_substituted.

(** Existing declarations stay as they are. *)
Theorem C48_kept : forall ext p fuel st t name st' r,
  instantiate fuel ext p st t name = Ok (st', r) -> extends st st'.
Proof. exact instantiate_kept. Qed.
Print Assumptions C48_kept.

(** The type a use is replaced by is declared afterwards. *)
Theorem C48_declared : forall ext p fuel st t name st' r,
  instantiate fuel ext p st t name = Ok (st', r) -> t_targs t <> [] ->
  exists d, found ext st (t_name t) d
    /\ lookup st' (d_kind d) (final_name t name) <> None
    /\ r = type_in p (final_name t name) (t_args t).
Proof. exact instantiate_declared. Qed.
Print Assumptions C48_declared.

(** A use of a name that is not declared or imported, or stands for something else than a
    struct, choice or union, or for one that is no template, or for one with another
    number of parameters, aborts the compiler. *)
Theorem C48_rejected : forall ext p fuel st t name,
  t_targs t <> [] ->
  assoc (st_syms st) (t_name t) = Some None
  \/ assoc (st_syms st) (t_name t) = None /\ ext (t_name t) = Panic
  \/ (exists d, found ext st (t_name t) d
        /\ (d_tparams d = [] \/ List.length (d_tparams d) <> List.length (t_targs t))) ->
  instantiate (S fuel) ext p st t name = Panic.
Proof. exact instantiate_rejects. Qed.
Print Assumptions C48_rejected.

(** [A] is the template of the package although another one is imported; [Q] is the
    imported one; [E] is no compound, [AX] no template. *)
Definition ext_Q : string -> res decl := fun n =>
  if String.eqb n "A" then Ok d_AB else if String.eqb n "Q" then Ok d_AB else Panic.
Definition st_Q : state :=
  St [] [("A", Some d_A); ("E", None); ("AX", Some (Decl DStruct [] [] [("a", named "X")] []))].
Example C48_found_case :
  found ext_Q st_Q "A" d_A /\ found ext_Q st_Q "Q" d_AB
  /\ (exists st1, instantiate 5 ext_Q "p" st_Q (templ "A" [named "X"]) "" = Ok (st1, type_in "p" "AX" [])
       /\ lookup st1 DStruct "AX" = Some (Decl DStruct [] [] [("a", named "X")] []))
  /\ (exists st1, instantiate 5 ext_Q "p" st_Q (templ "Q" [named "X"]) "Mine" = Ok (st1, type_in "p" "Mine" [])
       /\ lookup st1 DStruct "Mine" = Some (Decl DStruct [] [] [("a", named "X"); ("b", named "X")] []))
  /\ instantiate 5 ext_Q "p" st_Q (templ "E" [named "X"]) "" = Panic
  /\ instantiate 5 ext_Q "p" st_Q (templ "AX" [named "X"]) "" = Panic
  /\ instantiate 5 ext_Q "p" st_Q (templ "A" [named "X"; named "Y"]) "" = Panic
  /\ instantiate 5 ext_Q "p" st_Q (templ "Z" [named "X"]) "" = Panic.
Proof.
  split; [reflexivity|]. split; [reflexivity|].
  split; [eexists; split; vm_compute; reflexivity|].
  split; [eexists; split; vm_compute; reflexivity|].
  split; [apply C48_rejected; [discriminate|left; reflexivity]|].
  split; [apply C48_rejected; [discriminate|right; right; eexists; split; [reflexivity|left; reflexivity]]|].
  split; [apply C48_rejected; [discriminate|right; right; eexists; split; [reflexivity|right; discriminate]]|].
  apply C48_rejected; [discriminate|right; left; split; reflexivity].
Qed.

(** No template is left among the field types, for any template. *)
Theorem C48_no_templates_left : forall fuel ext p st t name st' r d,
  instantiate fuel ext p st t name = Ok (st', r) -> t_targs t <> [] ->
  found ext st (t_name t) d ->
  lookup st (d_kind d) (final_name t name) = None ->
  t_targs r = [] /\
  exists d', lookup st' (d_kind d) (final_name t name) = Some d'
    /\ map fst (d_fields d') = map fst (d_fields d)
    /\ Forall (fun f => t_targs (snd f) = []) (d_fields d').
Proof. exact instantiate_no_templates. Qed.
Print Assumptions C48_no_templates_left.

(** The fields of a declaration that is no template: every use of a template is
    replaced by the instantiation, which is declared; nothing else changes. *)
Theorem C48_fields : forall fuel ext p st d st' d',
  instantiate_fields fuel ext p st d = Ok (st', d') -> d_tparams d = [] ->
  extends st st' /\ d_kind d' = d_kind d /\ d_tparams d' = [] /\ d_params d' = d_params d
  /\ d_funs d' = d_funs d
  /\ d_fields d' = map (on_type (used_as p)) (d_fields d)
  /\ forall f, In f (d_fields d) -> t_targs (snd f) <> [] ->
       exists k, lookup st' k (inst_name (snd f)) <> None.
Proof. exact instantiate_fields_ok. Qed.
Print Assumptions C48_fields.

(** A template whose first field is of the type being defined is never finished, for
    any arguments. *)
Theorem C48_recursive_refuted : forall fuel ext p st t d f rest args0 fname,
  Forall simple (t_targs t) -> t_targs t <> [] ->
  found ext st (t_name t) d ->
  NoDup (d_tparams d) -> List.length (d_tparams d) = List.length (t_targs t) ->
  d_fields d = (fname, f) :: rest ->
  f = set_args (set_targs (named (t_name t)) (map named (d_tparams d))) args0 ->
  lookup st (d_kind d) (inst_name t) = None ->
  instantiate fuel ext p st t "" = NoFuel.
Proof. exact instantiate_recursive. Qed.
Print Assumptions C48_recursive_refuted.

(** struct Node<T> { Node<T> next; T value; } *)
Definition d_node : decl :=
  Decl DStruct ["T"] [] [("next", templ "Node" [named "T"]); ("value", named "T")] [].
Example C48_recursive_case : forall fuel,
  instantiate fuel no_ext "p" (St [] [("Node", Some d_node)]) (templ "Node" [named "X"]) "" = NoFuel.
Proof.
  intros fuel. eapply (C48_recursive_refuted _ _ _ _ _ d_node _ _ [] "next");
    try reflexivity; try discriminate.
  - repeat constructor.
  - constructor; [intros []|constructor].
Qed.

(** struct Pair<T, U>(T p) { T a; A<U> b; int8 c; function T f() ... } *)
Definition int8_ty : ty := Ty true "" "int8" 0 [] [] None.
Definition d_pair : decl :=
  Decl DStruct ["T"; "U"] [("p", named "T")]
    [("a", named "T"); ("b", templ "A" [named "U"]); ("c", int8_ty)] [("f", named "T")].
Definition st_pair : state := St [] [("A", Some d_A); ("Pair", Some d_pair)].
Definition use_pair : ty := templ "Pair" [named "X"; templ "A" [named "Y"]].
Example C48_case :
  exists st' r, instantiate 5 no_ext "p" st_pair use_pair "" = Ok (st', r)
  /\ found no_ext st_pair "Pair" d_pair
  /\ lookup st_pair DStruct (final_name use_pair "") = None
  /\ NoDup (d_tparams d_pair) /\ Forall no_args (t_targs use_pair)
  /\ Forall (fun f => shallow (d_tparams d_pair) (snd f)) (d_fields d_pair)
  /\ Forall (fun f => simple (snd f)) (d_params d_pair ++ d_funs d_pair)
  /\ lookup st' DStruct "PairXA" = Some (Decl DStruct [] [("p", named "X")]
       [("a", named "X"); ("b", type_in "p" "AAY" []); ("c", int8_ty)] [("f", named "X")])
  /\ lookup st' DStruct "AY" = Some (Decl DStruct [] [] [("a", named "Y")] [])
  /\ lookup st' DStruct "AAY" = Some (Decl DStruct [] [] [("a", type_in "p" "AY" [])] []).
Proof.
  eexists. eexists. split; [vm_compute; reflexivity|]. split; [reflexivity|]. split; [reflexivity|].
  split; [repeat constructor; cbn; intuition discriminate|].
  split; [repeat constructor|].
  split; [repeat (constructor; try (cbn; congruence))|].
  split; [repeat constructor|].
  split; [vm_compute; reflexivity|]. split; vm_compute; reflexivity.
Qed.

(** The parameter of a choice keeps the name of the template parameter as its type:
    choice Ch<T>(T sel) on sel { case 0: A<T> a; }. *)
Definition d_choice : decl := Decl DChoice ["T"] [("sel", named "T")] [("a", named "T")] [].
Theorem C48_choice_refuted : exists st' r d',
  instantiate 5 no_ext "p" (St [] [("Ch", Some d_choice)]) (templ "Ch" [named "X"]) "" = Ok (st', r)
  /\ lookup st' DChoice "ChX" = Some d'
  /\ d_tparams d' = [] /\ d_fields d' = [("a", named "X")] /\ d_params d' = [("sel", named "T")].
Proof.
  eexists. eexists. eexists. split; [vm_compute; reflexivity|].
  split; [vm_compute; reflexivity|]. split; [reflexivity|]. split; reflexivity.
Qed.
Print Assumptions C48_choice_refuted.

(** A template parameter inside the argument of an argument is not replaced:
    struct Outer<T> { A<A<T>> f; } leaves a declaration with a field of type T. *)
Definition d_outer : decl := Decl DStruct ["T"] [] [("f", templ "A" [templ "A" [named "T"]])] [].
Theorem C48_nested_refuted : exists st' r d',
  instantiate 5 no_ext "p" (St [] [("A", Some d_A); ("Outer", Some d_outer)])
    (templ "Outer" [named "X"]) "" = Ok (st', r)
  /\ lookup st' DStruct "AT" = Some d'
  /\ d_tparams d' = [] /\ d_fields d' = [("a", named "T")].
Proof.
  eexists. eexists. eexists. split; [vm_compute; reflexivity|].
  split; [vm_compute; reflexivity|]. split; reflexivity.
Qed.
Print Assumptions C48_nested_refuted.

(** A parameter whose type is a template stays the use of the template:
    struct S<T>(A<T> p) { T a; }. *)
Definition d_s : decl := Decl DStruct ["T"] [("p", templ "A" [named "T"])] [("a", named "T")] [].
Theorem C48_parameter_refuted : exists st' r d',
  instantiate 5 no_ext "p" (St [] [("A", Some d_A); ("S", Some d_s)])
    (templ "S" [named "X"]) "" = Ok (st', r)
  /\ lookup st' DStruct "SX" = Some d'
  /\ d_tparams d' = [] /\ d_params d' = [("p", templ "A" [named "T"])].
Proof.
  eexists. eexists. eexists. split; [vm_compute; reflexivity|].
  split; [vm_compute; reflexivity|]. split; reflexivity.
Qed.
Print Assumptions C48_parameter_refuted.
