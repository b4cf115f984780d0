(** Example package for the theorems about whole packages.
<<
    const uint8 MAX = 2;
 0  enum uint8 Kind { A = 1, B = 5 };
 1  struct Inner(uint8 p, Kind k) { int<p> b; uint16 c if p > 3; };
 2  choice Ch(Inner in, Kind k) on k { case Kind.A: uint16 x; case Kind.B: bit<in.p * 2> y; };
 3  struct Main { uint8 n; Kind k; uint8 sizes[n - 1]; Inner(n, k) inner; Ch(inner, k) ch;
      Inner(sizes[@index], k) list[lengthof(sizes)]; bit<n * 2> w if valueof(k) == 5;
      packed uint16 z[MAX + n]; Wide(n) last; };
 4  struct Wide(uint16 p) { uint8 v[p]; };
>> *)
From Coq Require Import ZArith List Bool String Lia ZifyBool.
From Verif Require Import M_Base M_Bits M_Var M_Prim M_Array S_Base S_Var S_Array S_Prim M_Gen S_Gen S_Wire X_Gen X_Wire.
From Verif Require Import M_Expr M_Print S_Expr S_Print S_Rust M_Comp S_Comp.
Import ListNotations.
Open Scope Z_scope.
Open Scope string_scope.

Definition x_fld (nm : string) (t : stype) : sfield := SF nm t None 0 NoOffset false None false.
Definition x_if (a : aexpr) (f : sfield) : sfield :=
  SF (sf_name f) (sf_ty f) (Some a) 0 NoOffset false (sf_array f) false.
Definition x_arr (p : bool) (a : aexpr) (f : sfield) : sfield :=
  SF (sf_name f) (sf_ty f) (sf_clause f) 0 NoOffset false (Some (SA p (Some a))) false.

Definition x_self (m : string) : texp := XLeaf (RField (RAtom "self") m).
Definition x_num (z : Z) : expr := ELit (LInt z).
Definition x_u8 (z : Z) : texp := XLit (LInt z) (RTInt false 8).
Definition x_name (m : string) : aexpr := AE (EId m) (x_self m).
Definition x_uint8 : stype := SBuiltin (BFix false 8).
Definition x_uint16 : stype := SBuiltin (BFix false 16).

Definition x_kind : sdef := SEnum "Kind" (BFix false 8) [1; 5].
Definition x_inner : sdef :=
  SStruct "Inner" [x_fld "p" x_uint8; x_fld "k" (SRef 0 [])]
    [x_fld "b" (SBits true (x_name "p"));
     x_if (AE (EBin BGt (EId "p") (x_num 3)) (XBin RGt (x_self "p") (x_u8 3))) (x_fld "c" x_uint16)].
Definition x_ch : sdef :=
  SChoice "Ch" [x_fld "in" (SRef 1 []); x_fld "k" (SRef 0 [])] (EId "k")
    [([EDot (EId "Kind") "A"], Some (x_fld "x" x_uint16));
     ([EDot (EId "Kind") "B"],
      Some (x_fld "y" (SBits false (AE (EBin BMul (EDot (EId "in") "p") (x_num 2))
                     (XBin RStar (XLeaf (RField (RField (RAtom "self") "in") "p")) (x_u8 2))))))] None.
Definition x_main_def : sdef :=
  SStruct "Main" []
    [x_fld "n" x_uint8;
     x_fld "k" (SRef 0 []);
     x_arr false (AE (EBin BMinus (EId "n") (x_num 1)) (XBin RMinus (x_self "n") (x_u8 1))) (x_fld "sizes" x_uint8);
     x_fld "inner" (SRef 1 [AVal (x_name "n"); AVal (x_name "k")]);
     x_fld "ch" (SRef 2 [AObj (EId "inner"); AVal (x_name "k")]);
     x_arr false (AE (ELengthof (EId "sizes"))
                   (XParen (XCast (XLeaf (RCall (RField (RField (RAtom "self") "sizes") "len") [])) "u32")))
       (x_fld "list" (SRef 1 [AVal (AE (EElem (EId "sizes") EIndex)
                                      (XLeaf (RElem (RField (RAtom "self") "sizes") (RAtom "param_index"))));
                              AVal (x_name "k")]));
     x_if (AE (EBin BEq (EValueof (EId "k")) (x_num 5)) (XBin REq (XCast (x_self "k") "u8") (x_u8 5)))
       (x_fld "w" (SBits false (AE (EBin BMul (EId "n") (x_num 2)) (XBin RStar (x_self "n") (x_u8 2)))));
     x_arr true (AE (EBin BPlus (EId "MAX") (EId "n")) (XBin RPlus (XLeaf (RAtom "MAX")) (x_self "n")))
       (x_fld "z" x_uint16);
     x_fld "last" (SRef 4 [AVal (x_name "n")])].
Definition x_wide : sdef :=
  SStruct "Wide" [x_fld "p" x_uint16] [x_arr false (x_name "p") (x_fld "v" x_uint8)].

Definition x_user (m : string) : tref := M_Expr.TRef false "" m 0 false.
Definition x_names (l : list (string * sym)) (m : string) (_ : bool) : option sym :=
  match find (fun p => String.eqb m (fst p)) l with Some (_, s) => Some s | None => None end.
Definition x_globals : list (string * sym) :=
  [("Kind", SyEnum ["A"; "B"] (native "uint8")); ("Inner", SyCompound); ("Ch", SyCompound); ("Main", SyCompound);
   ("Wide", SyCompound); ("MAX", SyConst (native "uint8"))].
Definition x_inner_names : list (string * sym) :=
  [("p", SyParam (native "uint8")); ("k", SyParam (x_user "Kind")); ("b", SyField (native "int"));
   ("c", SyField (native "uint16"))].
Definition x_scope (n : nat) : scope :=
  Scope (x_names (match n with
                  | 1%nat => x_inner_names
                  | 2%nat => [("in", SyParam (x_user "Inner")); ("k", SyParam (x_user "Kind")); ("x", SyField (native "uint16")); ("y", SyField (native "bit"))]
                  | 3%nat => [("n", SyField (native "uint8")); ("k", SyField (x_user "Kind"));
                              ("sizes", SyField (native "uint8")); ("inner", SyField (x_user "Inner"));
                              ("ch", SyField (x_user "Ch")); ("list", SyField (x_user "Inner"));
                              ("w", SyField (native "bit")); ("z", SyField (native "uint16"))]
                  | 4%nat => [("p", SyParam (native "uint16")); ("v", SyField (native "uint8"))]
                  | _ => []
                  end ++ x_globals))
    (fun t m => if String.eqb (tr_name t) "Inner" then x_names x_inner_names m false else None)
    (fun _ m => x_names x_globals m true).
Definition x_pkg : package :=
  Pkg [x_kind; x_inner; x_ch; x_main_def; x_wide]
    [("MAX", (RTInt false 8, VI 2)); ("A", (RTEnum "Kind", VI 1)); ("B", (RTEnum "Kind", VI 5))] x_scope.

Ltac cok := vm_compute; reflexivity.
Ltac expr_tac := split; [eexists; cok|split; [eexists; cok|split; [cbn; repeat split; lia|
  split; [cbn; repeat split; auto; first [discriminate | intros [?|?]; discriminate]|split; [cok|
  eexists; split; [reflexivity|split; [cok|let H := fresh in intros ? H; vm_compute in H; contradiction]]]]]]].
Ltac reads_tac := eexists; split; [cok|exists 40%nat; cok].
Ltac clones_tac := first [apply cl_none | apply cl_here | apply cl_cast; clones_tac | apply cl_un; clones_tac | apply cl_bin; clones_tac].
Ltac arg_tac := first [split; [expr_tac|split; [reads_tac|split; [intros ?; reads_tac|eexists; split; [reads_tac|clones_tac]]]]
                      | split; [expr_tac|split; [intros ?; reads_tac|eexists; split; [reads_tac|clones_tac]]]].
Ltac field_tac :=
  split; [cbn; first [exact I | split; [expr_tac|split; [reflexivity|reads_tac]]]|
  split; [cbn; first [exact I | split; [expr_tac|reads_tac]]|
  split; [cbn; first [exact I | split; [expr_tac|reads_tac] | repeat (split; [arg_tac|]); exact I]|
  split; [cbn; lia|cbn; first [exact I | repeat split; intros; try discriminate; cbn; lia]]]]].
Ltac fields_tac := let i := fresh "i" in let f := fresh "f" in let H := fresh "H" in intros i f H; cbn [sdef_fields x_kind x_inner x_ch x_main_def x_wide scase_fields flat_map snd app] in H;
  repeat (destruct i as [|i]; [injection H as <-; field_tac|]); destruct i; discriminate H.
Ltac params_tac := cbv [sdef_params x_kind x_inner x_ch x_main_def x_wide]; repeat (apply Forall_cons; [split; [reflexivity|split; [reflexivity|split; [cbn; first [exact I| repeat split; intros; try discriminate; cbn; lia]|cbn; first [exact I|reflexivity]]]]|]); apply Forall_nil.

Definition x_rank (n : nat) : nat := match n with 0 => 0 | 1 => 1 | 2 => 2 | 3 => 3 | _ => 1 end%nat.
Lemma x_kind_ok cb : def_ok cb 3 x_pkg x_rank 0 x_kind.
Proof. split; [params_tac|split; [fields_tac|split; [exact I|discriminate]]]. Qed.
Lemma x_inner_ok cb : def_ok cb 3 x_pkg x_rank 1 x_inner.
Proof. split; [params_tac|split; [|exact I]]. destruct cb; fields_tac. Qed.
Lemma x_wide_ok cb : def_ok cb 3 x_pkg x_rank 4 x_wide.
Proof. split; [params_tac|split; [|exact I]]. destruct cb; fields_tac. Qed.
Lemma x_ch_ok cb : def_ok cb 3 x_pkg x_rank 2 x_ch.
Proof.
  split; [params_tac|split; [destruct cb; fields_tac|split]].
  - do 3 eexists. split; [reflexivity|split; [reflexivity|split; reflexivity]].
  - destruct cb; (repeat (apply Forall_cons; [apply Forall_cons; [split; [exact I|split; [reads_tac|cbn; discriminate]]|apply Forall_nil]|]); apply Forall_nil).
Qed.
Lemma x_main_ok cb : def_ok cb 3 x_pkg x_rank 3 x_main_def.
Proof. split; [params_tac|split; [|exact I]]. destruct cb; fields_tac. Qed.

Lemma x_checked cb : checked cb 3 x_pkg.
Proof.
  split; [split; [|discriminate]|].
  - intros m t v H. cbn in H.
    repeat (match type of H with (if ?c then _ else _) = _ => destruct c end;
            [injection H as <- <-; split; [cbn; auto|cbn; eexists; repeat split; reflexivity]|]); discriminate H.
  - exists x_rank. intros n d H.
    destruct n as [|n]; [injection H as <-; apply x_kind_ok|].
    destruct n as [|n]; [injection H as <-; apply x_inner_ok|].
    destruct n as [|n]; [injection H as <-; apply x_ch_ok|].
    destruct n as [|n]; [injection H as <-; apply x_main_ok|].
    destruct n as [|n]; [injection H as <-; apply x_wide_ok|].
    destruct n; discriminate H.
Qed.

(** A value of [Main]. *)
Definition x_in (p b c : Z) : value := VObj 0 [VInt p; VInt 5] [VInt b; VInt c].
Definition x_value : value := VObj 0 []
  [VInt 4; VInt 5; VArr [VInt 5; VInt 6; VInt 3]; x_in 4 (-8) 7; VObj 0 [x_in 4 (-8) 7; VInt 5] [VInt 0; VInt 200];
   VArr [x_in 5 15 65535; x_in 6 (-32) 1; x_in 3 (-4) 0]; VInt 200;
   VArr [VInt 10; VInt 11; VInt 13; VInt 13; VInt 14; VInt 12];
   VObj 0 [VInt 4] [VArr [VInt 1; VInt 2; VInt 3; VInt 255]]].
Definition x_meaning : interp := spec_interp Debug 3 x_pkg.
Definition x_sch : schema :=
  Eval cbv [schema_of numbered decl_meant field_meant type_meant parameter_type seq combine List.length List.concat option_map map nth_error
            pk_defs x_pkg x_kind x_inner x_ch x_main_def x_wide x_fld x_if x_arr sf_name sf_ty sf_clause sf_align sf_offset
            sf_optional sf_array sf_is_offset sa_packed sa_len sdef_params x_uint8 x_uint16 fst snd]
  in schema_of x_meaning (pk_defs x_pkg).
Lemma x_sch_is : x_sch = intended Debug 3 x_pkg.
Proof. reflexivity. Qed.

Ltac ev := eexists; vm_compute; reflexivity.
Ltac evs_ := cbn [evaluates f_array f_ty as_len opt]; first [exact I | split; [first [exact I | ev] | first [exact I | ev]]].
Ltac match_ := cbn [item_match args_match f_ty params_of]; first [exact I | repeat (split; [eexists; split; [vm_compute; reflexivity|vm_compute; reflexivity]|]); exact I].
Ltac lentoks_ := cbn [length_toks as_len]; split; [eexists; split; [vm_compute; reflexivity|vm_compute; reflexivity]|reflexivity].
Ltac rfl := vm_compute; reflexivity.
Ltac wobj_ := first
  [ eapply wire_struct; [reflexivity|wfields_]
  | eapply wire_choice; [reflexivity|rfl|reflexivity|wfield_]
  | eapply wire_enum; [reflexivity|sbits] ]
with wfields_ := first [apply wire_nil | eapply wire_cons; [wfield_|wfields_]]
with wfield_ := first
  [ eapply wire_off; [evs_|reflexivity|rfl]
  | eapply wire_value; [evs_|reflexivity|rfl|reflexivity|wpayload_] ]
with wpayload_ := first
  [ eapply wire_single; [reflexivity|match_|witem_]
  | eapply wire_packed; [reflexivity|reflexivity|lentoks_|nts|witems_|apply paths_enough; vm_compute; reflexivity]
  | eapply wire_array; [reflexivity|reflexivity|lentoks_|witems_] ]
with witem_ := first
  [ eapply wire_scalar'; [cbn; intros; first [discriminate | split; discriminate] |rfl|sbits|cbn; reflexivity]
  | eapply wire_ref; wobj_ ]
with witems_ := first [apply wire_items_nil | eapply wire_items_cons; [match_|witem_|witems_]].

Definition x_bytes : list Z :=
  [4; 5; 5; 6; 3; 128; 0; 124; 135; 255; 255; 192; 0; 3; 50; 33; 0; 5; 20; 14; 1; 2; 3; 255].
Lemma x_value_wire : forall dbg, exists ts, wire x_sch dbg false 3 x_value ts
  /\ close_bits (bits_at 0 ts) = x_bytes.
Proof. intros []; eexists; (split; [wobj_|vm_compute; reflexivity]). Qed.
Lemma x_value_top : forall E, top_value E x_sch 3 x_value.
Proof.
  intros E. split; [reflexivity|].
  assert (exists W, consistent E x_sch false 3 x_value W /\ W = []) as (W & H & ->); [|exact H].
  eexists. split; [cns|reflexivity].
Qed.
