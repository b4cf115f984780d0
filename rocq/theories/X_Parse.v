(** Example for the parser (C72). *)
From Coq Require Import List String Lia.
From Verif Require Import M_Expr M_Lit M_Visit M_Parse S_Parse.
Import ListNotations.
Open Scope string_scope.

(** <<
      package demo.items;
      import base.*;
      enum uint8 Kind { @deprecated A = 1, B = 1 << 2 + 3, };
      struct Item<T>(uint32 n, Kind k) {
        align(8): bit:3 a;
        offs[@index]: packed T<string> v[n >> 1] if !isset(k, Kind.A) || n == 0 ? true : n > 2;
        optional bit<n - 1> b = -n * 2 : b < 10;
        function uint8 twice() { return (a + b) * lengthof(v); }
      };
      choice Alt(uint8 t) on t { case 1: case 2: Item(t, explicit x) i; default: ; };
      rule_group Rules { rule "r-1"; };
      sql_table Rows<T> using fts { int32 id sql "key"; sql_virtual Item(id) it; sql "unique"; sql_without_rowid; };
      sql_database Base { Rows<string> rows; };
      service Find { Item get(Kind); };
      pubsub Feed { publish topic("a/" + "b") Item items; topic("c") string all; };
    >> *)
Definition field_a : pfield :=
  PField (Some (PLit TkDec "8")) None false false (PMember false false (PInst (PBuiltin "bit" (Some "3")) PNone) "a" None) None None None.
Definition field_v : pfield :=
  PField None (Some (PElem (PId "offs") PIndex)) false false
    (PMember true false (PInst (PName ["T"] [PBuiltin "string" None]) PNone) "v" (Some (Some (PBin BShr (PId "n") (PLit TkDec "1")))))
    None
    (Some (PTern (PBin BLOr (PUn UBang (PIsset (PId "k") (PDot (PId "Kind") "A"))) (PBin BEq (PId "n") (PLit TkDec "0")))
             (PLit TkBool "true") (PBin BGt (PId "n") (PLit TkDec "2")))) None.
Definition field_b : pfield :=
  PField None None false true
    (PMember false false (PInst (PBuiltin "bit" None) (PLength (PBin BMinus (PId "n") (PLit TkDec "1")))) "b" None)
    (Some (PBin BMul (PUn UMinus (PId "n")) (PLit TkDec "2"))) None (Some (PBin BLt (PId "b") (PLit TkDec "10"))).
Definition demo_file : pfile :=
  PFile None (Some ["demo"; "items"]) [(["base"], true)]
    [PEnum (PInst (PBuiltin "uint8" None) PNone) "Kind"
       [PItem (Some Deprecated) "A" (Some (PLit TkDec "1"));
        PItem None "B" (Some (PBin BShl (PLit TkDec "1") (PBin BPlus (PLit TkDec "2") (PLit TkDec "3"))))] true;
     PStruct "Item" ["T"] [PParam (PBuiltin "uint32" None) "n"; PParam (PName ["Kind"] []) "k"]
       [field_a; field_v; field_b]
       [PFun (PBuiltin "uint8" None) "twice" (PBin BMul (PParen (PBin BPlus (PId "a") (PId "b"))) (PLengthof (PId "v")))];
     PChoice "Alt" [] [PParam (PBuiltin "uint8" None) "t"] (PId "t")
       [([PLit TkDec "1"; PLit TkDec "2"],
         Some (PCField (PMember false false (PInst (PName ["Item"] []) (PArgs [PArg (PId "t"); PExplicit "x"])) "i" None) None))]
       (Some None) [];
     POther (PRules "Rules" [PLit TkStr """r-1"""]);
     POther (PTable "Rows" ["T"] (Some "fts")
       [PTField false (PInst (PBuiltin "int32" None) PNone) "id" (Some (PLit TkStr """key"""));
        PTField true (PInst (PName ["Item"] []) (PArgs [PArg (PId "id")])) "it" None] (Some (PLit TkStr """unique""")) true);
     POther (PDatabase "Base" [(PInst (PName ["Rows"] [PBuiltin "string" None]) PNone, "rows")]);
     POther (PService "Find" [PMethod (PName ["Item"] []) "get" (PName ["Kind"] [])]);
     POther (PPubsub "Feed"
       [PMessage (Some Publish) (PBin BPlus (PLit TkStr """a/""") (PLit TkStr """b""")) (PName ["Item"] []) "items";
        PMessage None (PLit TkStr """c""") (PBuiltin "string" None) "all"])].

Lemma listed s l : existsb (String.eqb s) l = true -> In s l.
Proof. intros H. apply existsb_exists in H as (x & M & E). apply String.eqb_eq in E. now subst. Qed.
Lemma field_a_wf : field_wf field_a.
Proof.
  unfold field_wf. cbn [field_a pf_align pf_offset pf_member pf_init pf_clause pf_constraint opt_wf].
  repeat (split; [exact Logic.I|]). split; [|repeat (split; [exact Logic.I|]); discriminate].
  split; [|exact Logic.I]. split; [now apply listed|exact Logic.I].
Qed.
Ltac grp := cbn; repeat split; lia.
Lemma field_v_wf : field_wf field_v.
Proof.
  unfold field_wf. cbn [field_v pf_align pf_offset pf_member pf_init pf_clause pf_constraint opt_wf].
  split; [exact Logic.I|]. split; [grp|].
  split; [|split; [exact Logic.I|split; [grp|split; [exact Logic.I|discriminate]]]].
  split; [|grp]. split; [|exact Logic.I]. split; [discriminate|split; [right; now apply listed|exact Logic.I]].
Qed.
Lemma field_b_wf : field_wf field_b.
Proof.
  unfold field_wf. cbn [field_b pf_align pf_offset pf_member pf_init pf_clause pf_constraint opt_wf].
  split; [exact Logic.I|]. split; [exact Logic.I|].
  split; [|split; [grp|split; [exact Logic.I|split; [grp|]]]].
  - split; [|exact Logic.I]. split; [left; now apply listed|]. split; [grp|do 2 eexists; reflexivity].
  - intros e _ _ (ids & a & l & X). discriminate.
Qed.
Lemma demo_wf : file_wf demo_file.
Proof.
  unfold file_wf, demo_file. cbn [pl_package pl_imports pl_decls opt_wf]. split; [discriminate|].
  split; [repeat constructor|].
  assert (B : forall s, existsb (String.eqb s) builtin_names = true -> type_wf (PBuiltin s None)) by (intros; right; now apply listed).
  apply Forall_cons; [|apply Forall_cons; [|apply Forall_cons; [|apply Forall_cons; [|apply Forall_cons; [|apply Forall_cons; [|apply Forall_cons; [|apply Forall_cons; [|apply Forall_nil]]]]]]]]; cbn [decl_wf other_wf].
  - split; [split; [now apply B|exact Logic.I]|]. split; [discriminate|].
    constructor; [exact Logic.I|constructor; [grp|constructor]].
  - split; [constructor; [now apply B|constructor; [|constructor]]; split; [discriminate|exact Logic.I]|].
    split; [constructor; [apply field_a_wf|constructor; [apply field_v_wf|constructor; [apply field_b_wf|constructor]]]|].
    constructor; [|constructor]. split; [now apply B|grp].
  - split; [discriminate|]. split; [constructor; [now apply B|constructor]|]. split; [exact Logic.I|].
    split; [|split; [exact Logic.I|constructor]].
    constructor; [|constructor]. split; [discriminate|]. split; [repeat constructor|].
    repeat split; cbn; try discriminate. repeat constructor.
  - constructor; [exact Logic.I|constructor].
  - split; [|exact Logic.I]. constructor; [|constructor; [|constructor]]; (split; [split|]); cbn; try exact Logic.I.
    + now apply B.
    + split; [discriminate|exact Logic.I].
    + split; [discriminate|repeat constructor].
  - split; [discriminate|]. constructor; [|constructor]. split; [|exact Logic.I].
    split; [discriminate|]. split; [now apply B|exact Logic.I].
  - constructor; [|constructor]. split; (split; [discriminate|exact Logic.I]).
  - constructor; [|constructor; [|constructor]]; (split; [grp|]).
    + split; [discriminate|exact Logic.I].
    + now apply B.
Qed.

(** <<struct S { X<a> x : T<b> c; };>> with the constraint [T < b > c]; and the same
    tokens with the offset [X < a > x] of a field [c] of type [T<b>]. *)
Definition in_struct (f : pfield) : pfile := PFile None None [] [PStruct "S" [] [] [f] []].
Definition constrained : pfile :=
  in_struct (PField None None false false (PMember false false (PInst (PName ["X"] [PName ["a"] []]) PNone) "x" None) None None
               (Some (PBin BGt (PBin BLt (PId "T") (PId "b")) (PId "c")))).
Definition placed : pfile :=
  in_struct (PField None (Some (PBin BGt (PBin BLt (PId "X") (PId "a")) (PId "x"))) false false
               (PMember false false (PInst (PName ["T"] [PName ["b"] []]) PNone) "c" None) None None None).
(** <<struct S { T<a> x; };>> with a length and with a template argument. *)
Definition sized : pfile :=
  in_struct (PField None None false false (PMember false false (PInst (PName ["T"] []) (PLength (PId "a"))) "x" None) None None None).
Definition instantiated : pfile :=
  in_struct (PField None None false false (PMember false false (PInst (PName ["T"] [PName ["a"] []]) PNone) "x" None) None None None).
