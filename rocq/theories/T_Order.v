(** Property theorems: instantiating the templates of a package (C59). *)
From Coq Require Import ZArith List Bool String Lia.
From Coq Require Import Sorting.Permutation.
From Verif Require Import M_Base M_Expr M_Scope M_Templ M_Pkg S_Templ S_Order P_Order.
Import ListNotations.
Open Scope nat_scope.
Open Scope string_scope.

(** The declarations are visited in the order of a hash map. If different uses of
    templates get different names, the result does not depend on that order: the same
    types exist with the same contents, and the declarations use the same types. *)
Theorem C59_same : forall ext p st ds ds' fuel fuel' st1 r1 st2 r2,
  distinct_names ext p st ds -> Permutation ds ds' ->
  instantiate_decls fuel ext p st ds = Ok (st1, r1) ->
  instantiate_decls fuel' ext p st ds' = Ok (st2, r2) ->
  Permutation r1 r2 /\ (forall k n, lookup st1 k n = lookup st2 k n)
  /\ forall n, assoc (st_syms st1) n = assoc (st_syms st2) n.
Proof. exact order_same. Qed.
Print Assumptions C59_same.

(** If the compiler succeeds with one order, it does with every other. *)
Theorem C59_succeeds : forall ext p st ds ds' fuel st1 r1,
  distinct_names ext p st ds -> Permutation ds ds' ->
  instantiate_decls fuel ext p st ds = Ok (st1, r1) ->
  exists k, forall fuel', k <= fuel' -> exists st2 r2,
    instantiate_decls fuel' ext p st ds' = Ok (st2, r2).
Proof. exact order_succeeds. Qed.
Print Assumptions C59_succeeds.

(** [struct A<T> { T a; }  struct B<T> { A<T> x; }
    struct S { B<X> b; A<Y> c; }  struct R { A<X> d; }]. *)
Definition use (n : string) (args : list ty) : ty := Ty false "" n 0%Z args [] None.
Definition tA : decl := Decl DStruct ["T"] [] [("a", named "T")] [].
Definition tB : decl := Decl DStruct ["T"] [] [("x", use "A" [named "T"])] [].
Definition dS : decl := Decl DStruct [] [] [("b", use "B" [named "X"]); ("c", use "A" [named "Y"])] [].
Definition dR : decl := Decl DStruct [] [] [("d", use "A" [named "X"])] [].
Definition st_AB : state := St [] [("A", Some tA); ("B", Some tB)].
Definition nowhere : string -> res decl := fun _ => Panic.

Example C59_case :
  distinct_names nowhere "p" st_AB [dS; dR]
  /\ (exists st1 r1 x, instantiate_decls 5 nowhere "p" st_AB [dS; dR] = Ok (st1, r1)
       /\ lookup st1 DStruct "BX" = Some x /\ d_fields x = [("x", type_in "p" "AX" [])])
  /\ (exists st2 r2, instantiate_decls 5 nowhere "p" st_AB [dR; dS] = Ok (st2, r2)).
Proof.
  assert (A : forall t, arises nowhere "p" st_AB [dS; dR] t ->
                In t [use "B" [named "X"]; use "A" [named "Y"]; use "A" [named "X"]]).
  { induction 1 as [d f D E F U|t d u _ IH F B].
    - destruct D as [<-|[<-|[]]]; cbn in F; intuition (subst; cbn; auto).
    - destruct IH as [<-|[<-|[<-|[]]]]; cbn in F; injection F as <-; cbn in B; intuition (subst; cbn; auto). }
  split; [|split].
  - constructor.
    + intros t u Ht Hu. apply A in Ht, Hu.
      destruct Ht as [<-|[<-|[<-|[]]]], Hu as [<-|[<-|[<-|[]]]]; intros E; try discriminate; auto.
    + intros t u Ht Hu. apply A in Ht, Hu.
      destruct Ht as [<-|[<-|[<-|[]]]], Hu as [<-|[<-|[<-|[]]]]; discriminate.
    + intros n d F. unfold found, st_AB in F. cbn [st_syms assoc] in F.
      destruct (String.eqb n "A"); [injection F as <-; repeat constructor; cbn; tauto|].
      destruct (String.eqb n "B"); [injection F as <-; repeat constructor; cbn; tauto|].
      discriminate.
  - do 3 eexists. repeat split.
  - do 2 eexists. reflexivity.
Qed.

(** Without that the result depends on the order of the hash map: with [struct A<T> { T a; }
    struct AB<T> { T a; T b; }], the type [ABC] made for [A<BC>] and [AB<C>] is that of
    whichever is visited first. *)
Definition tAB : decl := Decl DStruct ["T"] [] [("a", named "T"); ("b", named "T")] [].
Definition dP : decl := Decl DStruct [] [] [("x", use "A" [named "BC"])] [].
Definition dQ : decl := Decl DStruct [] [] [("y", use "AB" [named "C"])] [].
Definition st_col : state := St [] [("A", Some tA); ("AB", Some tAB)].
Theorem C59_collision_refuted : exists st1 r1 st2 r2 x y,
  instantiate_decls 5 nowhere "p" st_col [dP; dQ] = Ok (st1, r1)
  /\ instantiate_decls 5 nowhere "p" st_col [dQ; dP] = Ok (st2, r2)
  /\ lookup st1 DStruct "ABC" = Some x /\ lookup st2 DStruct "ABC" = Some y
  /\ d_fields x = [("a", named "BC")] /\ d_fields y = [("a", named "C"); ("b", named "C")].
Proof. do 6 eexists. repeat split. Qed.
Print Assumptions C59_collision_refuted.
