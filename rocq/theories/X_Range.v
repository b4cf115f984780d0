(** Examples for C88. *)
From Coq Require Import ZArith List Bool Lia.
From Verif Require Import M_Base M_Bits M_Var M_Prim M_Array M_Gen S_Base S_Var S_Array S_Prim S_Gen S_Again S_Range M_Comp X_Gen X_Again X_Calm X_Calm2.
From Verif Require P_Base P_Gen7 P_Again2 P_Again3.
Import ListNotations.
Open Scope Z_scope.

(** ** The schema
<<
 0  struct Inner(uint8 k) { int:5 a; optional varuint16 b; };
 1  enum bit:3 Color { A = 1, B = 5 };
 2  choice Ch(uint8 t) on t { case 1: uint16 x; case 2: bool y; default: ; };
 3  union U { uint8 a; Inner(7) b; };
 4  struct Main { uint8 n; Inner(n) list[3]; Color c; align(8): Ch(n) ch; U u; float64 d if n > 1; };
>> *)
Definition n_inner : tdef := DStruct [fld uint8] [fld (TB (BBits true 5)); opt_of (fld (TB (BVarU VU16)))].
Definition n_color : tdef := DEnum (BBits false 3) [1; 5].
Definition n_ch : tdef := DChoice [fld uint8] (int_of (pref 0) (fun z => z))
  [([1], Some (fld uint16)); ([2], Some (fld (TB BBool)))] (Some None).
Definition n_union : tdef := DUnion [] [fld uint8; fld (TRef 0 [fun _ _ _ => Ok (VInt 7)])].
Definition n_main : tdef := DStruct []
  [fld uint8;
   arr_of false (Some (fun _ _ _ => Ok 3)) (fld (TRef 0 [eref 0]));
   fld (TRef 1 []);
   aligned 8 (fld (TRef 2 [eref 0]));
   fld (TRef 3 []);
   when (int_of (eref 0) (fun z => 1 <? z)) (fld (TB BFloat64))].
Definition ns : schema := [n_inner; n_color; n_ch; n_union; n_main].

Lemma ns_wf : wf_schema ns.
Proof.
  exists (fun n => n). intros n d H.
  repeat (destruct n as [|n];
      [injection H as <-; split;
        [cbn [def_params n_inner n_color n_ch n_union n_main]; cbn [def_fields choice_fields flat_map snd app n_inner n_color n_ch n_union n_main]; repeat (apply Forall_cons; [first [exact I | cbn; repeat split; intros; try discriminate; lia]|]); apply Forall_nil
        |intros i f H; cbn in H; repeat (destruct i as [|i]; [injection H as <-; repeat split; cbn; try lia; try loc; repeat (constructor; try loc)|]); cbn in H; destruct i; discriminate
        |first [exact I | intros ? ? ? ?; reflexivity]|first [exact I | split; [exact I|discriminate] | cbn; lia]]|]). destruct n; discriminate.
Qed.

Ltac one := first [eapply field_single; [reflexivity|] | eapply field_list; [reflexivity| |intros ? ? ? [= <-]; split; apply Z.le_refl|lia|lia]].
Ltac bi := apply (spans_builtin _ _); cbn; auto 8; lia.
Ltac fs := repeat (apply Forall2_cons; [one; try bi|]); try apply Forall2_nil.
Lemma spans_is sch t q q' : spans sch t q' -> q' = q -> spans sch t q.
Proof. intros H <-. exact H. Qed.
Lemma inner_spans args : spans ns (TRef 0 args) (mkRange 6 (Some 22)).
Proof. eapply spans_is; [eapply (spans_struct ns 0 args [fld uint8] _ [_; _]); [reflexivity|]; fs|reflexivity]. Qed.
Lemma ch_spans args : spans ns (TRef 2 args) (mkRange 0 (Some 16)).
Proof.
  eapply (spans_choice ns 2 args _ _ _ _ [_; _]); [reflexivity| | |].
  - fs.
  - repeat constructor; cbn; lia.
  - right. split; cbn; lia.
Qed.
Lemma union_spans args : spans ns (TRef 3 args) (mkRange 14 (Some 62)).
Proof.
  eapply spans_is; [eapply (spans_union ns 3 args [] _ [_; _] (mkRange 6 (Some 22))); [reflexivity| |]|reflexivity].
  - fs. apply inner_spans.
  - repeat constructor; cbn; lia.
Qed.
Lemma main_spans : spans ns (TRef 4 []) (mkRange 43 (Some 226)).
Proof.
  eapply spans_is; [eapply (spans_struct ns 4 [] [] _ [_; _; _; _; _; _]); [reflexivity|]|].
  1: apply Forall2_cons; [one; bi|]. 1: apply Forall2_cons; [one; apply inner_spans|]. 1: apply Forall2_cons; [one|].
  { eapply spans_enum; [reflexivity|]. bi. }
  1: apply Forall2_cons; [one; apply ch_spans|]. 1: apply Forall2_cons; [one; apply union_spans|]. 1: apply Forall2_cons; [one; bi|]. 1: apply Forall2_nil. reflexivity.
Qed.

(** A short and a long value. *)
Definition in_short : value := VObj 0 [VInt 0] [VInt 3; VNone].
Definition n_short : value := VObj 0 []
  [VInt 0; VArr [in_short; in_short; in_short]; VInt 5; VObj 0 [VInt 0] [VInt 0; VBool false]; VObj 0 [] [VInt 9; VObj 0 [VInt 0] [VInt 0; VNone]]; VFloat 64 0].
Definition n_short_bytes : list Z := [0; 24; 97; 168; 0; 9].
Definition in_long : value := VObj 0 [VInt 2] [VInt 15; VSome (VInt 20000)].
Definition n_long : value := VObj 0 []
  [VInt 2; VArr [in_long; in_long; in_long]; VInt 5; VObj 0 [VInt 2] [VInt 0; VBool true];
   VObj 1 [] [VInt 0; VObj 0 [VInt 7] [VInt (-4); VSome (VInt 130)]]; VFloat 64 4607182418800017408].

Lemma ns_able : able ns.
Proof.
  split; [exact ns_wf|]. intros n d H.
  repeat (destruct n as [|n];
      [injection H as <-; split;
        [cbn [def_fields choice_fields flat_map snd app n_inner n_color n_ch n_union n_main]; repeat (apply Forall_cons; [cbn; first [exact I | solve [auto 8] | lia]|]); apply Forall_nil
        |first [exact I | cbn; lia | split; [cbn; auto 8; lia|repeat (apply Forall_cons; [int_val|]); apply Forall_nil]]]|]). destruct n; discriminate.
Qed.
Lemma ns_tame : tame ns.
Proof.
  intros n d H. repeat (destruct n as [|n]; [injection H as <-; split; [cbn; repeat constructor|exact I]|]). destruct n; discriminate.
Qed.
Lemma n_top data v : from_bytes (impl_at env0 ns 10 4) data = Ok v -> modest v -> top_value env0 ns 4 v.
Proof.
  intros H M. exact (proj1 (P_Again2.bytes_good env0 env0 ns true ns_able 10 4 n_main data v eq_refl eq_refl H (P_Again3.modest_within ns _ ns_tame _ _ M))).
Qed.

Definition n_long_bytes : list Z := [2; 127; 56; 129; 252; 226; 7; 243; 136; 40; 128; 243; 1; 4; 127; 224; 0; 0; 0; 0; 0; 0].

(** ** A type in itself
<<
 0  struct Chain { optional Chain next; };
>> *)
Definition chain : schema := [DStruct [] [opt_of (fld (TRef 0 []))]].
Fixpoint links (k : nat) : value := match k with O => VObj 0 [] [VNone] | S k => VObj 0 [] [VSome (links k)] end.
Lemma links_written E : forall k c w, oi_write (impl_at E chain (S k) 0) false c (links k) w = Ok (c, w ++ repeat true k ++ [false]).
Proof.
  induction k as [|k IH]; intros c w; [reflexivity|].
  replace (w ++ repeat true (S k) ++ [false]) with ((w ++ [true]) ++ repeat true k ++ [false]) by (rewrite <- app_assoc; reflexivity).
  remember (S k) as j. cbn [impl_at]. subst j. cbn -[impl_at app]. rewrite IH. reflexivity.
Qed.
Lemma links_long E k : exists bytes, to_bytes (impl_at E chain (S k) 0) (links k) = Ok bytes /\ Z.of_nat k < 8 * zlen bytes.
Proof.
  unfold to_bytes. rewrite links_written. cbn [bind app]. eexists. split; [reflexivity|]. destruct (P_Gen7.close_bits_spec (repeat true k ++ [false])) as (-> & _).
  rewrite P_Base.zlen_app. unfold zlen. rewrite repeat_length. cbn [length]. lia.
Qed.

(** ** The packages of C80 *)
Lemma c_kind_spans b : spans (c_sch b) (TRef 0 []) (exactly 8).
Proof. eapply (spans_enum (c_sch b) 0); [reflexivity|]. apply (spans_builtin (c_sch b) (BFix false 8)). cbn. auto. Qed.
Lemma c_item_spans b args : spans (c_sch b) (TRef 1 args) (mkRange 8 None).
Proof.
  eapply spans_is; [eapply (spans_struct (c_sch b) 1 args _ _ [_; _; _]); [reflexivity|]|].
  1: apply Forall2_cons; [one; bi|]. 1: apply Forall2_cons; [eapply field_packed; reflexivity|]. 1: apply Forall2_cons; [one; bi|]. 1: apply Forall2_nil. reflexivity.
Qed.
Lemma c_main_spans b : spans (c_sch b) (TRef 3 []) (mkRange 39 None).
Proof.
  eapply spans_is; [eapply (spans_struct (c_sch b) 3 [] _ _ [_; _; _; _; _; _; _; _; _]); [reflexivity|]|].
  1: apply Forall2_cons; [one; bi|]. 1: apply Forall2_cons; [one; apply c_kind_spans|]. 1: apply Forall2_cons; [one; apply c_item_spans|].
  1: apply Forall2_cons; [one; apply spans_anything|]. 1: apply Forall2_cons; [eapply field_packed; reflexivity|]. 1: apply Forall2_cons; [one; bi|].
  1: apply Forall2_cons; [one; bi|]. 1: apply Forall2_cons; [one; bi|]. 1: apply Forall2_cons; [eapply field_implicit; reflexivity|]. 1: apply Forall2_nil. reflexivity.
Qed.
Lemma t_leaf_spans b args : spans (t_sch b) (TRef 0 args) (mkRange 8 None).
Proof.
  eapply spans_is; [eapply (spans_struct (t_sch b) 0 args _ _ [_; _]); [reflexivity|]|].
  1: apply Forall2_cons; [one; bi|]. 1: apply Forall2_cons; [eapply field_packed; reflexivity|]. 1: apply Forall2_nil. reflexivity.
Qed.
Lemma t_tree_spans b : spans (t_sch b) (TRef 1 []) (mkRange 16 None).
Proof.
  eapply spans_is; [eapply (spans_struct (t_sch b) 1 [] _ _ [_; _]); [reflexivity|]|].
  1: apply Forall2_cons; [one; apply t_leaf_spans|]. 1: apply Forall2_cons; [eapply field_implicit; reflexivity|]. 1: apply Forall2_nil. reflexivity.
Qed.
