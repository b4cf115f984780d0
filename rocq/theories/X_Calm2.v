(** Examples for C80: a package with types that contain arrays of themselves,
<<
 0  struct Leaf { uint8 n; uint8 v[n]; };
 1  struct Tree { Leaf leaf; Branch branches[]; };
 2  struct Branch { uint8 w; Tree sub[]; uint16 c if w > 3; };
>>
    and a type whose values are nested as deeply as the data says. *)
From Coq Require Import ZArith List Bool String Lia ZifyBool.
From Verif Require Import M_Base M_Bits M_Var M_Prim M_Array S_Base S_Var S_Array S_Prim M_Gen S_Gen S_Again S_Calm.
From Verif Require Import M_Expr M_Print S_Expr S_Print S_Rust M_Comp S_Comp M_Code S_Code X_Comp X_Calm P_Ext.
Import ListNotations.
Open Scope Z_scope.
Open Scope string_scope.

Definition t_leaf : sdef := SStruct "Leaf" [] [x_fld "n" x_uint8; x_arr false (x_name "n") (x_fld "v" x_uint8)].
Definition t_tree : sdef :=
  SStruct "Tree" [] [x_fld "leaf" (SRef 0 []); SF "branches" (SRef 2 []) None 0 NoOffset false (Some (SA false None)) false].
Definition t_branch : sdef :=
  SStruct "Branch" []
    [x_fld "w" x_uint8; SF "sub" (SRef 1 []) None 0 NoOffset false (Some (SA false None)) false;
     x_if (AE (EBin BGt (EId "w") (x_num 3)) (XBin RGt (x_self "w") (x_u8 3))) (x_fld "c" x_uint16)].
Definition t_scope (n : nat) : scope :=
  Scope (x_names (match n with
                  | 0%nat => [("n", SyField (native "uint8")); ("v", SyField (native "uint8"))]
                  | 1%nat => [("leaf", SyField (x_user "Leaf")); ("branches", SyField (x_user "Branch"))]
                  | 2%nat => [("w", SyField (native "uint8")); ("sub", SyField (x_user "Tree")); ("c", SyField (native "uint16"))]
                  | _ => []
                  end))
    (fun t m => None) (fun _ m => None).
Definition t_pkg : package := Pkg [t_leaf; t_tree; t_branch] [] t_scope.
Definition t_rank (n : nat) : nat := match n with 0 => 0 | _ => 1 end%nat.

Ltac t_fields := let i := fresh "i" in let f := fresh "f" in let H := fresh "H" in intros i f H; cbn [sdef_fields t_leaf t_tree t_branch] in H;
  repeat (destruct i as [|i]; [injection H as <-; field_tac|]); destruct i; discriminate H.
Lemma t_checked cb : checked cb 3 t_pkg.
Proof.
  split; [split; [discriminate|discriminate]|].
  exists t_rank. intros n d H.
  destruct n as [|n]; [injection H as <-; split; [constructor|split; [destruct cb; t_fields|exact I]]|].
  destruct n as [|n]; [injection H as <-; split; [constructor|split; [destruct cb; t_fields|exact I]]|].
  destruct n as [|n]; [injection H as <-; split; [constructor|split; [destruct cb; t_fields|exact I]]|].
  destruct n; discriminate H.
Qed.
Lemma t_printable : all_printable (pk_defs t_pkg).
Proof.
  intros d H. cbn [pk_defs t_pkg] in H. repeat (destruct H as [<-|H]); [..|destruct H].
  all: split; [cbn; repeat constructor; cbn; intuition discriminate|split].
  all: try (cbn; repeat (apply Forall_cons; [cbn; try exact I; eexists; split; reflexivity|]); apply Forall_nil).
  all: try exact I; try discriminate.
Qed.

Definition t_sch (b : build) : schema := generated Debug 3 b t_pkg.
Lemma t_calm b : calm_tree (t_sch b).
Proof.
  exists t_rank. intros n d H.
  destruct n as [|n]; [injection H as <-|].
  { split; [cbn; repeat (apply Forall_cons; [split; [cbn; lia|cbn; try lia; auto]|]); apply Forall_nil|].
    intros f IN ps fs PS FS. cbn [map] in IN. open_ PS. open_ FS. know_all.
    all: destruct IN as [<-|[<-|[]]].
    all: eexists; (split; [first [reflexivity | norm; reflexivity]|]); flat.
    all: try (intros _; exact I).
    split; [reflexivity|]; split; [exact I|]. eexists; split; [norm; reflexivity|]; intros _; exact I. }
  destruct n as [|n]; [injection H as <-|].
  { split; [cbn; repeat (apply Forall_cons; [split; [cbn; lia|cbn; split; [lia|]; first [left; lia|right; eexists; reflexivity]]|]); apply Forall_nil|].
    intros f IN ps fs PS FS. cbn [map] in IN.
    destruct IN as [<-|[<-|[]]]; (eexists; split; [reflexivity|]); flat; [intros _; left; reflexivity|].
    split; [reflexivity|]; split; [exact I|]. intros _. left. reflexivity. }
  destruct n as [|n]; [injection H as <-|].
  { split; [cbn; repeat (apply Forall_cons; [split; [cbn; lia|cbn; first [tauto | split; [lia|]; first [left; lia|right; eexists; reflexivity]]]|]); apply Forall_nil|].
    intros f IN ps fs PS FS. cbn [map] in IN. open_ PS. open_ FS. know_all.
    all: destruct IN as [<-|[<-|[<-|[]]]].
    all: eexists; (split; [first [reflexivity | norm; reflexivity]|]); flat.
    all: try (intros _; exact I).
    split; [reflexivity|]; split; [exact I|]. intros _. left. reflexivity. }
  destruct n; discriminate H.
Qed.
(** The first type contains itself. *)
Lemma t_not_calm b : ~ calm (t_sch b).
Proof.
  intros (rank & C). destruct (C 1%nat _ eq_refl) as [H1 _]. destruct (C 2%nat _ eq_refl) as [H2 _].
  apply Forall_inv_tail, Forall_inv in H1. apply Forall_inv_tail, Forall_inv in H2.
  destruct H1 as (_ & _ & R1). destruct H2 as (_ & _ & R2). lia.
Qed.

(** struct T { T kids[]; } *)
Definition c_deep : schema := [DStruct [] [mkField (M_Gen.TRef 0 []) None 0 NoOffset false (Some (mkAS false None)) false]].
Definition d_data (g : nat) : list Z := repeat 1 g ++ [0].
Fixpoint d_value (g : nat) : value := VObj 0 [] [VArr (match g with O => [] | S g => [d_value g] end)].

Lemma d_one p y : read_varsize (mkR p ([false; false; false; false; false; false; false; true] ++ y)) = Ok (1, mkR (p + 8) y).
Proof.
  assert (H : read_varsize (mkR p [false; false; false; false; false; false; false; true]) = Ok (1, mkR (p + 8) [])) by reflexivity.
  destruct (read_varsize_loc _ _ _ _ H) as (bs & B & L). cbn [r_rest] in B. rewrite app_nil_r in B. subst bs. apply L.
Qed.

Lemma d_zero p y : read_varsize (mkR p ([false; false; false; false; false; false; false; false] ++ y)) = Ok (0, mkR (p + 8) y).
Proof.
  assert (H : read_varsize (mkR p [false; false; false; false; false; false; false; false]) = Ok (0, mkR (p + 8) [])) by reflexivity.
  destruct (read_varsize_loc _ _ _ _ H) as (bs & B & L). cbn [r_rest] in B. rewrite app_nil_r in B. subst bs. apply L.
Qed.

Definition d_bits (g : nat) : list bool := bits_of_data (d_data g).
Lemma d_default E g : oi_default (impl_at E c_deep (S g) 0) = Ok (VObj 0 [] [VArr []]).
Proof. reflexivity. Qed.

(** One object: its length, and its elements. *)
Lemma d_step E h ctx s ps f r :
  oi_read (impl_at E c_deep (S h) 0) false ctx (VObj s ps [f]) r =
  do (k, r1) <- read_varsize r ;
  do (l, r2) <- read_all (object_trait (impl_at E c_deep h 0)) false (fresh_item (impl_at E c_deep h) (M_Gen.TRef 0 []) ps [f]) (Z.to_nat k) 0 r1 ;
  Ok (VObj s ps [VArr l], ctx, r2).
Proof.
  cbn [impl_at nth_error c_deep def_impl struct_impl oi_read with_obj decode_fields].
  unfold decode_field. cbn [get nth_error bind instantiate_array f_array as_len f_ty rmap as_packed orb andb clause f_clause negb].
  unfold field_align_reader. cbn [f_align Z.eqb bind f_offset f_optional decode_payload array_read_length a_fixed f_ty a_trait].
  fold c_deep.
  destruct (read_varsize r) as [[k r1]|e| |]; try reflexivity. cbn [bind].
  unfold array_read. cbn [a_packed a_trait]. change (offs_of _) with false.
  destruct (read_all _ _ _ _ _ _) as [[l r2]|e| |]; reflexivity.
Qed.

Lemma d_reads E : forall g p ctx s ps f,
  oi_read (impl_at E c_deep g 0) false ctx (VObj s ps [f]) (mkR p (d_bits g)) = NoFuel
  /\ exists p', oi_read (impl_at E c_deep (S g) 0) false ctx (VObj s ps [f]) (mkR p (d_bits g))
       = Ok (VObj s ps [VArr (match g with O => [] | S g => [d_value g] end)], ctx, mkR p' []).
Proof.
  induction g as [|g IH]; intros p ctx s ps f.
  - split; [reflexivity|]. exists (p + 8). rewrite d_step. change (d_bits 0) with ([false; false; false; false; false; false; false; false] ++ [])%list.
    rewrite d_zero. reflexivity.
  - change (d_bits (S g)) with ([false; false; false; false; false; false; false; true] ++ d_bits g)%list. split.
    + rewrite d_step, d_one. cbn [bind]. change (Z.to_nat 1) with 1%nat. cbn [read_all fresh_item item_default].
      destruct g as [|g]; [reflexivity|]. rewrite d_default. cbn [bind align_elem_reader object_trait at_read].
      rewrite (proj1 (IH _ _ _ _ _)). reflexivity.
    + destruct (proj2 (IH (p + 8) no_ctx 0 [] (VArr []))) as (p' & R). exists p'.
      rewrite d_step, d_one. cbn [bind]. change (Z.to_nat 1) with 1%nat. cbn [read_all fresh_item item_default].
      rewrite d_default. cbn [bind align_elem_reader object_trait at_read]. rewrite R. cbn [bind]. destruct g; reflexivity.
Qed.

Lemma d_nested E g : exists data, List.length data = S g /\ from_bytes (impl_at E c_deep g 0) data = NoFuel
  /\ from_bytes (impl_at E c_deep (S g) 0) data = Ok (d_value g).
Proof.
  exists (d_data g). split; [unfold d_data; rewrite app_length, repeat_length; cbn; lia|]. unfold from_bytes. fold (d_bits g). split.
  - destruct g as [|g]; [reflexivity|]. rewrite d_default. cbn [bind]. rewrite (proj1 (d_reads E _ _ _ _ _ _)). reflexivity.
  - rewrite d_default. cbn [bind]. destruct (proj2 (d_reads E g 0 no_ctx 0 [] (VArr []))) as (p' & ->). destruct g; reflexivity.
Qed.
Lemma d_calm : calm_tree c_deep.
Proof.
  exists (fun _ => O). intros n d H. destruct n as [|n]; [injection H as <-|destruct n; discriminate H].
  split; [cbn; apply Forall_cons; [|apply Forall_nil]; split; [cbn; lia|]; cbn; split; [lia|right; eexists; reflexivity]|].
  intros f IN ps fs PS FS. destruct IN as [<-|[]]. eexists; split; [reflexivity|]. split; [reflexivity|]; split; [exact I|]. intros _. left. reflexivity.
Qed.
