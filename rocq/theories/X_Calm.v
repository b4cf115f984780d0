(** Examples for C80: a package whose data cannot make a reader abort,
<<
 0  enum uint8 Kind { A = 1, B = 5 };
 1  struct Item(uint8 p, Kind k) { uint8 t; uint8 v[p]; uint16 c if p > 3; };
 2  choice Ch(Kind k) on k { case Kind.A: uint16 x; case Kind.B: bytes y; };
 3  struct Main { uint8 n; Kind k; Item(n, k) it; Ch(k) ch; align(8): Item(n, k) list[n]; bit:6 w; bit<w> z;
      optional varint32 o; float16 f[]; };
>>
    and schemas that abort. *)
From Coq Require Import ZArith List Bool String Lia ZifyBool.
From Verif Require Import M_Base M_Bits M_Var M_Prim M_Array S_Base S_Var S_Array S_Prim M_Gen S_Gen S_Again S_Calm.
From Verif Require Import M_Expr M_Print S_Expr S_Print S_Rust M_Comp S_Comp M_Code S_Code X_Comp.
Import ListNotations.
Open Scope Z_scope.
Open Scope string_scope.

Definition c_item : sdef :=
  SStruct "Item" [x_fld "p" x_uint8; x_fld "k" (SRef 0 [])]
    [x_fld "t" x_uint8; x_arr false (x_name "p") (x_fld "v" x_uint8);
     x_if (AE (EBin BGt (EId "p") (x_num 3)) (XBin RGt (x_self "p") (x_u8 3))) (x_fld "c" x_uint16)].
Definition c_ch : sdef :=
  SChoice "Ch" [x_fld "k" (SRef 0 [])] (EId "k")
    [([EDot (EId "Kind") "A"], Some (x_fld "x" x_uint16)); ([EDot (EId "Kind") "B"], Some (x_fld "y" (SBuiltin BBytes)))] None.
Definition c_args : list sarg := [AVal (x_name "n"); AVal (x_name "k")].
Definition c_main : sdef :=
  SStruct "Main" []
    [x_fld "n" x_uint8; x_fld "k" (SRef 0 []); x_fld "it" (SRef 1 c_args); x_fld "ch" (SRef 2 [AVal (x_name "k")]);
     SF "list" (SRef 1 c_args) None 8 NoOffset false (Some (SA false (Some (x_name "n")))) false;
     x_fld "w" (SBuiltin (BBits false 6)); x_fld "z" (SBits false (x_name "w"));
     SF "o" (SBuiltin (BVarS VS32)) None 0 NoOffset true None false;
     SF "f" (SBuiltin BFloat16) None 0 NoOffset false (Some (SA false None)) false].
Definition c_scope (n : nat) : scope :=
  Scope (x_names (match n with
                  | 1%nat => [("p", SyParam (native "uint8")); ("k", SyParam (x_user "Kind")); ("t", SyField (native "uint8")); ("v", SyField (native "uint8")); ("c", SyField (native "uint16"))]
                  | 2%nat => [("k", SyParam (x_user "Kind")); ("x", SyField (native "uint16")); ("y", SyField (native "bytes"))]
                  | 3%nat => [("n", SyField (native "uint8")); ("k", SyField (x_user "Kind")); ("it", SyField (x_user "Item"));
                              ("ch", SyField (x_user "Ch")); ("list", SyField (x_user "Item")); ("w", SyField (M_Expr.TRef true "" "bit" 6 false));
                              ("z", SyField (native "bit")); ("o", SyField (native "varint32")); ("f", SyField (native "float16"))]
                  | _ => []
                  end ++ x_globals))
    (fun t m => None) (fun _ m => x_names x_globals m true).
Definition c_pkg : package :=
  Pkg [x_kind; c_item; c_ch; c_main] [("A", (RTEnum "Kind", VI 1)); ("B", (RTEnum "Kind", VI 5))] c_scope.

Ltac c_fields := let i := fresh "i" in let f := fresh "f" in let H := fresh "H" in intros i f H; cbn [sdef_fields x_kind c_item c_ch c_main scase_fields flat_map snd app] in H;
  repeat (destruct i as [|i]; [injection H as <-; field_tac|]); destruct i; discriminate H.
Ltac c_params := cbv [sdef_params x_kind c_item c_ch c_main]; repeat (apply Forall_cons; [split; [reflexivity|split; [reflexivity|split; [cbn; first [exact I| repeat split; intros; try discriminate; cbn; lia]|cbn; first [exact I|reflexivity]]]]|]); apply Forall_nil.
Definition c_rank (n : nat) : nat := match n with 0 => 0 | 1 => 1 | 2 => 1 | _ => 2 end%nat.

Lemma c_checked cb : checked cb 3 c_pkg.
Proof.
  split; [split; [|discriminate]|].
  - intros m t v H. cbn in H.
    repeat (match type of H with (if ?c then _ else _) = _ => destruct c end;
            [injection H as <- <-; split; [cbn; auto|cbn; eexists; repeat split; reflexivity]|]); discriminate H.
  - exists c_rank. intros n d H.
    destruct n as [|n]; [injection H as <-|].
    { split; [c_params|split; [c_fields|split; [exact I|discriminate]]]. }
    destruct n as [|n]; [injection H as <-|].
    { split; [c_params|split; [|exact I]]. destruct cb; c_fields. }
    destruct n as [|n]; [injection H as <-|].
    { split; [c_params|split; [destruct cb; c_fields|split]].
      - do 3 eexists. split; [reflexivity|split; [reflexivity|split; reflexivity]].
      - destruct cb; (repeat (apply Forall_cons; [apply Forall_cons; [split; [exact I|split; [reads_tac|cbn; discriminate]]|apply Forall_nil]|]); apply Forall_nil). }
    destruct n as [|n]; [injection H as <-|].
    { split; [c_params|split; [|exact I]]. destruct cb; c_fields. }
    destruct n; discriminate H.
Qed.

Lemma c_printable : all_printable (pk_defs c_pkg).
Proof.
  intros d H. cbn [pk_defs c_pkg] in H. repeat (destruct H as [<-|H]); [..|destruct H].
  all: split; [cbn; repeat constructor; cbn; intuition discriminate|split].
  all: try (cbn; repeat (apply Forall_cons; [cbn; try exact I; eexists; split; reflexivity|]); apply Forall_nil).
  all: try exact I; try discriminate.
Qed.

(** ** Calm *)
Definition c_sch (b : build) : schema := generated Debug 3 b c_pkg.

Lemma byte_member sch f v : f_optional f = false -> f_array f = None -> f_ty f = TB (BFix false 8) -> of_member sch f v ->
  exists x, v = VInt x /\ 0 <= x < 2 ^ 8.
Proof.
  intros O A T H. inversion H; subst; try congruence. match goal with H : of_payload _ _ _ |- _ => inversion H; subst end; try congruence.
  match goal with H : of_item _ _ _ |- _ => rewrite T in H; inversion H; subst end. assumption.
Qed.
Lemma six_member sch f v : f_optional f = false -> f_array f = None -> f_ty f = TB (BBits false 6) -> of_member sch f v ->
  exists x, v = VInt x /\ 0 <= x < 2 ^ 6.
Proof.
  intros O A T H. inversion H; subst; try congruence. match goal with H : of_payload _ _ _ |- _ => inversion H; subst end; try congruence.
  match goal with H : of_item _ _ _ |- _ => rewrite T in H; inversion H; subst end. assumption.
Qed.
Lemma kind_member b f v : f_optional f = false -> f_array f = None -> f_ty f = M_Gen.TRef 0 [] -> of_member (c_sch b) f v ->
  v = VInt 1 \/ v = VInt 5.
Proof.
  intros O A T H. inversion H; subst; try congruence. match goal with H : of_payload _ _ _ |- _ => inversion H; subst end; try congruence.
  match goal with H : of_item _ _ _ |- _ => rewrite T in H; inversion H; subst end.
  match goal with H : of_def _ _ _ |- _ => inversion H; subst end; match goal with H : nth_error _ _ = Some _ |- _ => cbv in H; try discriminate H end.
  match goal with H : Some _ = Some _ |- _ => injection H as <- <- end. match goal with H : In _ _ |- _ => destruct H as [<-|[<-|[]]] end; auto.
Qed.
Lemma byte_fits x : 0 <= x < 2 ^ 8 -> (0 <=? x)%Z = true /\ (x <? 2 ^ 8)%Z = true.
Proof. lia. Qed.
Lemma six_fits x : 0 <= x < 2 ^ 6 -> (0 <=? x)%Z = true /\ (x <? 2 ^ 64)%Z = true.
Proof. lia. Qed.
Lemma F2_cons {A B} (R : A -> B -> Prop) a l m : Forall2 R (a :: l) m -> exists b m', m = b :: m' /\ R a b /\ Forall2 R l m'.
Proof. inversion 1; eauto. Qed.
Lemma F2_nil {A B} (R : A -> B -> Prop) m : Forall2 R [] m -> m = [].
Proof. inversion 1; reflexivity. Qed.

Ltac open_ H := first [apply F2_nil in H; subst | let b := fresh "v" in let m := fresh "m" in let B := fresh "M" in
  apply F2_cons in H; destruct H as (b & m & -> & B & H); open_ H].
Ltac know B := first
  [ apply byte_member in B; [|reflexivity|reflexivity|reflexivity]; let X := fresh "X" in destruct B as (? & -> & X); apply byte_fits in X; destruct X
  | apply six_member in B; [|reflexivity|reflexivity|reflexivity]; let X := fresh "X" in destruct B as (? & -> & X); pose proof X; apply six_fits in X; destruct X
  | apply kind_member in B; [|reflexivity|reflexivity|reflexivity]; destruct B as [-> | ->]
  | clear B ].
Ltac know_all := repeat match goal with B : of_member _ _ _ |- _ => know B end.
Ltac norm := cbv -[Z.modulo Z.pow Z.leb Z.ltb Z.le Z.lt c_sch];
  repeat match goal with H : _ = true |- _ => rewrite H end; cbv -[Z.modulo Z.pow Z.leb Z.ltb Z.le Z.lt c_sch].

Ltac flat := cbn [map fst snd lower_field f_array f_ty f_clause option_map x_arr x_if x_fld sf_array sf_ty sf_clause sf_name sa_packed sa_len as_packed as_len lower_type] in *.
Ltac member_tac := apply of_plain; [reflexivity|]; apply of_single; [reflexivity|]; flat; cbn [lower_args];
  first [apply of_built; eexists; split; [reflexivity|lia] | apply of_ref; eapply of_enum; [reflexivity|cbn; tauto]].
Ltac args_tac := right; eexists; split; [reflexivity|]; cbn [lower_args c_args def_params lower_def map];
  repeat (apply Forall2_cons; [let i := fresh in intros i _; eexists; split; [norm; reflexivity|member_tac]|]); apply Forall2_nil.
Lemma c_calm b : calm (c_sch b).
Proof.
  exists c_rank. intros n d H.
  destruct n as [|n]; [injection H as <-|].
  { split; [constructor|]. split; [exact I|]. split; [cbn; tauto|discriminate]. }
  destruct n as [|n]; [injection H as <-|].
  { split; [cbn; repeat (apply Forall_cons; [split; [cbn; lia|cbn; try lia; auto]|]); apply Forall_nil|].
    intros f IN ps fs PS FS.
    cbn [map] in IN.
    open_ PS. open_ FS. know_all.
    all: destruct IN as [<-|[<-|[<-|[]]]].
      all: eexists; (split; [first [reflexivity | norm; reflexivity]|]); flat.
    all: try (intros _; exact I).
      all: split; [reflexivity|]; split; [exact I|]. all: eexists; split; [norm; reflexivity|]; intros _; exact I. }
  destruct n as [|n]; [injection H as <-|].
  { split; [cbn; repeat (apply Forall_cons; [split; [cbn; lia|cbn; try lia; auto]|]); apply Forall_nil|].
    split.
    - intros ps fs PS FS. open_ PS. open_ FS. know_all; eexists; norm; reflexivity.
    - intros f IN ps fs PS FS. clear PS FS. flat. destruct IN as [<-|[<-|[]]]; (eexists; split; [reflexivity|]; intros _; exact I). }
  destruct n as [|n]; [injection H as <-|].
  { split; [cbn; repeat (apply Forall_cons; [split; [cbn; lia|cbn; try lia; auto]|]); apply Forall_nil|].
    intros f IN ps fs PS FS. cbn [map] in IN. open_ PS. open_ FS. know_all.
    all: repeat (destruct IN as [<-|IN]); [..|destruct IN].
      all: eexists; (split; [first [reflexivity | norm; reflexivity]|]); flat.
    all: try (intros _; exact I).
    all: try (intros _; left; reflexivity).
    all: try (intros _; args_tac).
    all: try (intros _; eexists; split; [norm; reflexivity|]; rewrite Z.mod_small; [lia|]; rewrite Z.mod_small; lia).
    all: split; [reflexivity|]; split; [exact I|].
    all: try (intros _; exact I).
    all: eexists; split; [norm; reflexivity|]; intros _; args_tac. }
  destruct n; discriminate H.
Qed.

(** Data that aborts, for one schema for each condition. *)
Definition c_fld (t : M_Gen.ty) : field := mkField t None 0 NoOffset false None false.
Definition c_uint8 : field := c_fld (TB (BFix false 8)).
Definition c_first (fs : list value) : res Z := match fs with VInt x :: _ => Ok x | _ => Panic end.
Definition c_string : schema := [DStruct [] [c_fld (TB BString)]].
Definition c_extern : schema := [DStruct [] [c_fld (TB BExtern)]].
Definition c_union : schema := [DUnion [] [c_uint8; c_uint8]].
Definition c_packed : schema := [DStruct [] [mkField (TB (BFix false 8)) None 0 NoOffset false (Some (mkAS true None)) false]].
(** struct { uint8 n; bit<n> x; } *)
Definition c_width : schema := [DStruct [] [c_uint8; c_fld (TB (BDyn false (fun _ _ fs => c_first fs)))]].
(** struct { uint8 n; uint8 x[n - 2] if n >= 2; }: in a debug build the subtraction aborts. *)
Definition c_clause : schema :=
  [DStruct [] [c_uint8;
     mkField (TB (BFix false 8)) (Some (fun _ _ fs => do n <- c_first fs ; Ok (2 <=? n)%Z)) 0 NoOffset false
       (Some (mkAS false (Some (fun _ _ fs => do n <- c_first fs ; if (n <? 2)%Z then Panic else Ok (n - 2))))) false]].
(** struct A { A x[1]; } *)
Definition c_endless : schema := [DStruct [] [mkField (M_Gen.TRef 0 []) None 0 NoOffset false (Some (mkAS false (Some (fun _ _ _ => Ok 1)))) false]].

Lemma c_endless_reads E data : forall g, from_bytes (impl_at E c_endless g 0) data = NoFuel.
Proof.
  assert (R : forall g ctx s ps f r, oi_read (impl_at E c_endless g 0) false ctx (VObj s ps [f]) r = NoFuel).
  { induction g as [|g IH]; intros ctx s ps f r; [reflexivity|].
    cbn [impl_at nth_error c_endless def_impl struct_impl oi_read with_obj decode_fields].
    destruct g as [|g]; [reflexivity|].
    assert (D : oi_default (impl_at E c_endless (S g) 0) = Ok (VObj 0 [] [VArr []])) by reflexivity.
    unfold decode_field. cbn [get nth_error bind instantiate_array f_array as_len f_ty rmap as_packed orb andb clause f_clause negb].
    unfold field_align_reader. cbn [f_align Z.eqb bind f_offset f_optional decode_payload array_read_length a_fixed f_ty].
    unfold array_read. cbn [a_packed a_trait]. change (wrap_u 64 1) with 1. change (Z.to_nat 1) with 1%nat.
    cbn [read_all fresh_item item_default]. rewrite D. cbn [bind offs_of f_offset align_elem_reader object_trait at_read]. rewrite IH. reflexivity. }
  intros g. destruct g as [|g]; [reflexivity|]. unfold from_bytes.
  assert (D : oi_default (impl_at E c_endless (S g) 0) = Ok (VObj 0 [] [VArr []])) by reflexivity.
  rewrite D. cbn [bind]. rewrite R. reflexivity.
Qed.
Lemma c_aborts E g :
  from_bytes (impl_at E c_string (S g) 0) [] = Panic
  /\ from_bytes (impl_at E c_extern (S g) 0) [9; 0] = Panic
  /\ from_bytes (impl_at E c_union (S g) 0) [2] = Panic
  /\ from_bytes (impl_at E c_packed (S g) 0) [2] = Panic
  /\ from_bytes (impl_at E c_width (S g) 0) [65; 0; 0; 0; 0; 0; 0; 0; 0; 0] = Panic
  /\ from_bytes (impl_at E c_clause (S g) 0) [1] = Panic.
Proof. repeat split; vm_compute; reflexivity. Qed.
