(** Property theorems: the Rust code generated for expressions (C53). *)
From Coq Require Import ZArith List Bool String Lia.
From Verif Require Import M_Base M_Expr M_Print S_Print P_Print.
Import ListNotations.
Open Scope nat_scope.
Open Scope string_scope.

(** ** C53 *)

(** The code generated for an accepted expression is read by Rust as the tree the
    schema stands for: every operator keeps its operands. *)
Theorem C53_reads : forall b fuel sc e r ts,
  eval b fuel sc e = Ok r -> gen b fuel sc e = Ok ts -> grouped e -> plain e ->
  rust_reads ts (tree b fuel sc e).
Proof. exact gen_rust_reads. Qed.
Print Assumptions C53_reads.

(** The same for the conditions of fields: a number is compared with zero. *)
Theorem C53_condition : forall b fuel sc e r ts,
  eval b fuel sc e = Ok r -> gen_bool b fuel sc e = Ok ts ->
  grouped e -> plain e -> is_ternary e = false ->
  rust_reads ts (condition_tree b fuel sc e).
Proof. exact gen_bool_reads. Qed.
Print Assumptions C53_condition.

(** A text is read in at most one way. *)
Theorem C53_unique : forall ts t t', rust_reads ts t -> rust_reads ts t' -> t = t'.
Proof. exact rust_reads_unique. Qed.
Print Assumptions C53_unique.

(** Fields [a : uint8], [b : uint32], [s : string], [l : ...], a bitmask [m], an
    enum [c], a struct [p] with the field [x], functions and constants. *)
Definition u8 := TRef true "" "uint8" 0 false.
Definition u32 := TRef true "" "uint32" 0 false.
Definition color : tref := TRef false "" "Color" 0 false.
Definition perm : tref := TRef false "" "Perm" 0 false.
Definition point : tref := TRef false "" "Point" 0 false.
Definition ex_scope : scope :=
  Scope (fun n _ => assoc
    [("a", SyField u8); ("b", SyField u32); ("s", SyField (native "string"));
     ("t", SyField (native "bool"));
     ("m", SyField perm); ("c", SyField color); ("p", SyField point);
     ("Color", SyEnum ["RED"; "BLUE"] u8); ("Perm", SyBitmask ["READ"; "WRITE"] u8);
     ("Point", SyCompound); ("K", SyConst u32)]%string n)
   (fun _ n => if String.eqb n "x" then Some (SyField u8) else None)
   (fun _ _ => None).
Definition name (n : string) : expr := EId n.
Definition num (z : Z) : expr := ELit (LInt z).

(** [(a + b * K - p.x << 2 | 1) > 3 && isset(m, Perm.READ) || valueof(c) == 1
     ? lengthof(s) : numbits(7) - 1]. *)
Definition ex_print : expr :=
  ETern
    (EBin BLOr
      (EBin BLAnd
        (EBin BGt
          (EParen (EBin BOr
             (EBin BShl (EBin BMinus (EBin BPlus (name "a") (EBin BMul (name "b") (name "K")))
                                     (EDot (name "p") "x")) (num 2)) (num 1)))
          (num 3))
        (EIsset (name "m") (EDot (name "Perm") "READ")))
      (EBin BEq (EValueof (name "c")) (num 1)))
    (ELengthof (name "s"))
    (EBin BMinus (ENumbits (num 7)) (num 1)).
Example C53_case : exists r ts,
  eval Release 5 ex_scope ex_print = Ok r /\ gen Release 5 ex_scope ex_print = Ok ts
  /\ grouped ex_print /\ plain ex_print
  /\ rust_reads ts (tree Release 5 ex_scope ex_print).
Proof.
  assert (H : exists r ts,
    eval Release 5 ex_scope ex_print = Ok r /\ gen Release 5 ex_scope ex_print = Ok ts).
  { eexists. eexists. split; vm_compute; reflexivity. }
  destruct H as (r & ts & H1 & H2). exists r, ts.
  assert (H3 : grouped ex_print) by (cbn; repeat split; lia).
  assert (H4 : plain ex_print).
  { cbn; repeat split; auto; try discriminate; try (intros [? | ?]; discriminate). }
  exact (conj H1 (conj H2 (conj H3 (conj H4 (C53_reads _ _ _ _ _ _ H1 H2 H3 H4))))).
Qed.

(** [m & Perm.READ] as a condition. *)
Example C53_condition_case :
  exists ts, gen_bool Debug 5 ex_scope (EBin BAnd (name "m") (EDot (name "Perm") "READ")) = Ok ts
    /\ rust_reads ts (RBin RNe (RBin RAmp (RField (RAtom "self") "m") (RAtom "READ")) (RLit (LInt 0))).
Proof.
  eexists. split; [vm_compute; reflexivity|]. exists 20. vm_compute. reflexivity.
Qed.

(** The restrictions are needed. [!isset(m, v)] negates the mask, not the test;
    [-valueof(c)] negates before the conversion. *)
Theorem C53_misread_refuted :
  Forall (fun e => exists r ts t,
      eval Debug 5 ex_scope e = Ok r /\ grouped e /\ gen Debug 5 ex_scope e = Ok ts
      /\ rust_reads ts t /\ t <> tree Debug 5 ex_scope e)
    [EUn UBang (EIsset (name "m") (EDot (name "Perm") "READ"));
     EUn UMinus (EValueof (name "c"))].
Proof.
  repeat apply Forall_cons; try apply Forall_nil.
  - do 3 eexists. split; [vm_compute; reflexivity|]. split; [cbn; repeat split; lia|].
    split; [vm_compute; reflexivity|]. split; [exists 20; vm_compute; reflexivity|].
    vm_compute. discriminate.
  - do 3 eexists. split; [vm_compute; reflexivity|]. split; [cbn; repeat split; lia|].
    split; [vm_compute; reflexivity|]. split; [exists 20; vm_compute; reflexivity|].
    vm_compute. discriminate.
Qed.
Print Assumptions C53_misread_refuted.

(** And these accepted expressions give text that is no Rust expression at all:
    [+a], [~a], [valueof(c) < 3], [valueof(c) << 3], [(a == b == t)] without the
    parentheses, [isset(m, Perm.READ) == t], [valueof(c)[0]]. *)
Theorem C53_unreadable_refuted :
  Forall (fun e => exists r ts,
      eval Debug 5 ex_scope e = Ok r /\ grouped e /\ gen Debug 5 ex_scope e = Ok ts
      /\ ~ exists t, rust_reads ts t)
    [EUn UPlus (name "a"); EUn UTilde (name "a");
     EBin BLt (EValueof (name "c")) (num 3);
     EBin BShl (EValueof (name "c")) (num 3);
     EBin BEq (EBin BEq (name "a") (name "b")) (name "t");
     EBin BEq (EIsset (name "m") (EDot (name "Perm") "READ")) (name "t");
     EElem (EValueof (name "c")) (num 0)].
Proof.
  repeat apply Forall_cons; try apply Forall_nil;
    (do 2 eexists; split; [vm_compute; reflexivity|]; split; [cbn; repeat split; lia|];
     split; [vm_compute; reflexivity|]; apply unreadable; intros n;
     first [left; reflexivity
           | right; do 2 eexists; split; [reflexivity|discriminate]]).
Qed.
Print Assumptions C53_unreadable_refuted.
