(** Proofs about the choice of runtime functions for builtin types. *)
From Coq Require Import ZArith List Bool String Lia.
From Verif Require Import M_Base M_Bits M_Var M_Prim S_Var M_Array M_Gen M_Expr M_Scope M_Print M_Lit M_Types.
From Verif Require Import S_Lit S_Prim S_Array S_Gen S_Wire S_Size S_Types P_Base P_Lit P_Gen1 P_Wire1 P_Size.
Import ListNotations.
Open Scope Z_scope.

Record linked (E : env) (b : build) (fuel : nat) (sc : scope) (t : ty) (T : bty) (z : Z) : Prop := {
  lk_write : exists wr, field_writer E b fuel sc t z = Some wr
               /\ forall v w, wr v w = scalar_write E T (wrap_u 8 z) v w;
  lk_read : exists rd, field_reader E b fuel sc t z = Some rd
               /\ forall r, rd r = scalar_read E T (wrap_u 8 z) r;
  lk_size : exists sz, field_sizer E t = Some sz /\ forall v, sz v = scalar_bitsize E T v;
  lk_ops : element_ops E t z = Some (bty_ops E T (wrap_u 8 z));
  lk_pack : name_packable (t_name t) = bty_packable T }.

Ltac fin := (eexists; split; [reflexivity|]; intros;
             try reflexivity; try (cbn; unfold need; match goal with v : value |- _ => destruct v end; cbn; try reflexivity; f_equal; lia)).

Lemma plain_linked : forall E b fuel sc z s T, In (s, T) plain_types ->
  exists t, type_instantiation s None = Ok t /\ linked E b fuel sc t T z.
Proof.
  intros E b fuel sc z s T H. exists (Ty true "" s 0 [] [] None).
  repeat (destruct H as [H|H]; [injection H as <- <-; split; [reflexivity|]; constructor;
    [fin|fin|fin|reflexivity|reflexivity]|]).
  destruct H.
Qed.

Lemma u8_literal : forall n, 1 <= n <= 64 -> in_u 8 n = true.
Proof. intros n H. unfold in_u. change (2 ^ 8) with 256. lia. Qed.

Lemma bits_linked : forall E b fuel sc z n (sg : bool) k, n = (if sg then "int" else "bit")%string -> 1 <= k <= 64 ->
  linked E b fuel sc (Ty true "" n k [] [] None) (BBits sg k) z.
Proof.
  intros E b fuel sc z n sg k -> H. pose proof (u8_literal k H) as U.
  assert (K : (k =? 0) = false) by lia.
  constructor.
  - unfold field_writer, write_call. cbn [t_name t_bits t_len]. rewrite K.
    destruct sg; cbn; rewrite U; eexists; (split; [reflexivity|]); intros; reflexivity.
  - unfold field_reader, read_call. cbn [t_name t_bits t_len]. rewrite K.
    destruct sg; cbn; rewrite U; eexists; (split; [reflexivity|]); intros; reflexivity.
  - unfold field_sizer, size_call. cbn [t_name t_bits t_len]. rewrite K.
    destruct sg; cbn; eexists; (split; [reflexivity|]); intros; reflexivity.
  - unfold element_ops, trait_init. cbn [t_name t_bits t_len]. rewrite K.
    destruct sg; cbn; rewrite ?K; cbn; rewrite U; reflexivity.
  - destruct sg; reflexivity.
Qed.

Lemma dyn_arg : forall b fuel sc e z, length_is b fuel sc (Some e) z ->
  exists c, u8_cast b fuel sc e = Ok c /\ arg_value (BaExpr c e) z = Some (wrap_u 8 z).
Proof.
  intros b fuel sc e z (r & V & H). unfold u8_cast. rewrite V. cbn [bind].
  assert (K : (forall t, e_nt r = Some t -> tr_name t = "uint8"%string) ->
    (if in_u 8 z then Some z else None) = Some (wrap_u 8 z)).
  { intros N. specialize (H N). unfold in_u, wrap_u. change (2 ^ 8) with 256.
    replace ((0 <=? z) && (z <? 256)) with true by lia. rewrite Z.mod_small by lia. reflexivity. }
  eexists. split; [reflexivity|]. destruct (e_nt r) as [t|].
  - destruct (String.eqb (tr_name t) "uint8") eqn:Q; cbn [negb arg_value]; [|reflexivity].
    apply String.eqb_eq in Q. apply K. intros t' H'. injection H' as <-. exact Q.
  - cbn [arg_value]. apply K. discriminate.
Qed.

Lemma dyn_linked : forall E b fuel sc z n (sg : bool) e f, n = (if sg then "int" else "bit")%string ->
  length_is b fuel sc (Some e) z ->
  linked E b fuel sc (Ty true "" n 0 [] [] (Some e)) (BDyn sg f) z.
Proof.
  intros E b fuel sc z n sg e f -> H. destruct (dyn_arg b fuel sc e z H) as (c & C & A).
  assert (R : rust_type (Ty true "" (if sg then "int" else "bit")%string 0 [] [] (Some e)) = Ok (if sg then "i64" else "u64")%string)
    by (destruct sg; reflexivity).
  constructor.
  - unfold field_writer, write_call, length_arg. cbn [t_name t_bits t_len]. rewrite C.
    rewrite R. destruct sg; cbn [String.eqb Ascii.eqb Bool.eqb negb orb given bind Z.eqb];
      unfold link; rewrite A; cbn; eexists; (split; [reflexivity|]); intros; reflexivity.
  - unfold field_reader, read_call, length_arg. cbn [t_name t_bits t_len]. rewrite C.
    rewrite R. destruct sg; cbn [String.eqb Ascii.eqb Bool.eqb negb orb given bind Z.eqb];
      unfold link; rewrite A; cbn; eexists; (split; [reflexivity|]); intros; reflexivity.
  - destruct sg; cbn; eexists; (split; [reflexivity|]); intros; reflexivity.
  - destruct sg; reflexivity.
  - destruct sg; reflexivity.
Qed.

Lemma spelled_linked : forall E b fuel sc z s len T, spelled s len T -> length_is b fuel sc len z ->
  exists t, type_instantiation s len = Ok t /\ linked E b fuel sc t T z.
Proof.
  intros E b fuel sc z s len T H L. destruct H as [s T H|ds D N|ds D N|e f|e f].
  - apply plain_linked. exact H.
  - exists (Ty true "" "bit" (numeral 10 ds) [] [] None). split; [|apply bits_linked; [reflexivity|exact N]].
    unfold type_instantiation. change ("bit:" ++ ds)%string with ("bit" ++ String (Ascii.ascii_of_nat 58) ds)%string.
    rewrite bit_width by auto. replace (numeral 10 ds <=? 255) with true by lia. reflexivity.
  - exists (Ty true "" "int" (numeral 10 ds) [] [] None). split; [|apply bits_linked; [reflexivity|exact N]].
    unfold type_instantiation. change ("int:" ++ ds)%string with ("int" ++ String (Ascii.ascii_of_nat 58) ds)%string.
    rewrite bit_width by auto. replace (numeral 10 ds <=? 255) with true by lia. reflexivity.
  - eexists. split; [reflexivity|]. apply dyn_linked; [reflexivity|exact L].
  - eexists. split; [reflexivity|]. apply dyn_linked; [reflexivity|exact L].
Qed.

(** *** What a user sees *)
Lemma written : forall E b fuel sc z s len T, spelled s len T -> length_is b fuel sc len z ->
  exists t wr ops, type_instantiation s len = Ok t
    /\ field_writer E b fuel sc t z = Some wr /\ element_ops E t z = Some ops
    /\ forall v bs, scalar_bits T (wrap_u 8 z) v bs ->
         forall w, wr v w = Ok (w ++ bs) /\ eo_write ops v w = Ok (w ++ bs).
Proof.
  intros E b fuel sc z s len T H L. destruct (spelled_linked E b fuel sc z s len T H L) as (t & I & K).
  destruct (lk_write _ _ _ _ _ _ _ K) as (wr & W & W'). exists t, wr, (bty_ops E T (wrap_u 8 z)).
  repeat split; auto. apply (lk_ops _ _ _ _ _ _ _ K).
  - rewrite W'. apply (scalar_written E T _ v bs w H0).
  - apply (scalar_written E T _ v bs w H0).
Qed.

Lemma enc_unique : forall T n v bs, bty_val T n v -> scalar_bits T n v bs -> bs = enc_of T n v.
Proof.
  intros T n v bs V B. pose proof (proj1 (scalar_rt (strict Debug) T n v V) []) as A.
  rewrite (proj1 (scalar_written (strict Debug) T n v bs [] B)) in A. apply ok_inj in A. exact A.
Qed.

Lemma read_back : forall E b fuel sc z s len T, spelled s len T -> length_is b fuel sc len z ->
  exists t rd ops, type_instantiation s len = Ok t
    /\ field_reader E b fuel sc t z = Some rd /\ element_ops E t z = Some ops
    /\ forall v bs, bty_val T (wrap_u 8 z) v -> scalar_bits T (wrap_u 8 z) v bs ->
         forall p rest, rd (mkR p (bs ++ rest)) = Ok (v, mkR (p + zlen bs) rest)
                        /\ eo_read ops (mkR p (bs ++ rest)) = Ok (v, mkR (p + zlen bs) rest).
Proof.
  intros E b fuel sc z s len T H L. destruct (spelled_linked E b fuel sc z s len T H L) as (t & I & K).
  destruct (lk_read _ _ _ _ _ _ _ K) as (rd & R & R'). exists t, rd, (bty_ops E T (wrap_u 8 z)).
  split; [exact I|]. split; [exact R|]. split; [apply (lk_ops _ _ _ _ _ _ _ K)|].
  intros v bs V B p rest. pose proof (enc_unique _ _ _ _ V B) as ->. split.
  - rewrite R'. apply (proj2 (scalar_rt E T _ v V)).
  - apply (proj2 (bty_rt T _ v V E)).
Qed.

Lemma sized_bits : forall E T n v bs, scalar_bits T n v bs ->
  match T with BDyn _ _ | BBytes | BExtern => False | _ => True end ->
  scalar_bitsize E T v = Ok (zlen bs).
Proof.
  intros E T n v bs H K. 
  assert (X : exact_writer (strict (e_build E))) by (intros a m l; cbn; discriminate).
  assert (S1 : sized_single false T).
  { split; [|destruct T; exact K]. inversion H; subst; try exact I;
      destruct T as [[]|[]|[]|t|t| | | | | | |]; cbn in *; try exact I;
      match goal with Q : Some _ = Some _ |- _ => injection Q as <- <-; lia | _ => discriminate end. }
  assert (S2 : short_strings v = true).
  { inversion H; subst; try reflexivity. cbn [short_strings].
    match goal with Q : varsize_bits _ _ |- _ => destruct Q as (Q & _) end.
    apply Z.ltb_lt. assert (2 ^ 31 < 2 ^ 32) by reflexivity. lia. }
  destruct (scalar_len _ X T n v [] _ S1 S2 (proj1 (scalar_written _ T n v bs [] H))) as (s & A & B).
  change (scalar_bitsize (strict (e_build E)) T v) with (scalar_bitsize E T v) in A. rewrite A.
  f_equal. cbn [app] in B. unfold zlen in *. cbn [List.length] in B. lia.
Qed.

Lemma size_right : forall E s len T, spelled s len T -> len = None -> T <> BBytes -> T <> BExtern ->
  exists t sz, type_instantiation s len = Ok t /\ field_sizer E t = Some sz
    /\ forall n v bs, scalar_bits T n v bs -> sz v = Ok (zlen bs).
Proof.
  intros E s len T H -> N1 N2.
  destruct (spelled_linked E Debug 0 (Scope (fun _ _ => None) (fun _ _ => None) (fun _ _ => None)) 0 s None T H I) as (t & A & K).
  destruct (lk_size _ _ _ _ _ _ _ K) as (sz & Z1 & Z2). exists t, sz. split; [exact A|]. split; [exact Z1|].
  intros n v bs B. rewrite Z2. apply (sized_bits E T n v bs B). inversion H; subst; auto.
  match goal with Q : In _ _ |- _ => rename Q into HI end.
  repeat (destruct HI as [HI|HI]; [injection HI as <- <-; auto; congruence|]). destruct HI.
Qed.

Definition rust_of (T : bty) : string :=
  match T with
  | BFix false w => if (w =? 8)%Z then "u8" else if (w =? 16)%Z then "u16" else if (w =? 32)%Z then "u32" else "u64"
  | BFix true w => if (w =? 8)%Z then "i8" else if (w =? 16)%Z then "i16" else if (w =? 32)%Z then "i32" else "i64"
  | BBits false _ | BDyn false _ => "u64"
  | BBits true _ | BDyn true _ => "i64"
  | BVarU VU16 => "u16" | BVarU VU32 => "u32" | BVarU VU64 => "u64" | BVarU VU => "u64" | BVarU VSIZE => "u32"
  | BVarS VS16 => "i16" | BVarS VS32 => "i32" | BVarS VS64 => "i64" | BVarS VS => "i64"
  | BFloat16 => "f32" | BFloat32 => "f32" | BFloat64 => "f64"
  | BBool => "bool" | BString => "String" | BBytes => "ztype::BytesType" | BExtern => "ztype::ExternType"
  end%string.

Lemma rust_of_holds : forall T n v bs, scalar_bits T n v bs ->
  match T with BFix _ w => In w [8; 16; 32; 64] | _ => True end -> rust_value (rust_of T) v.
Proof.
  assert (U : forall k x m tw, In (k, tw) [("u8", 8); ("u16", 16); ("u32", 32); ("u64", 64)]%string ->
     m <= tw -> 0 <= x < 2 ^ m -> rust_value k (VInt x)).
  { intros k x m tw I M X. apply (rv_u k tw); [exact I|].
    assert (2 ^ m <= 2 ^ tw) by (apply Z.pow_le_mono_r; try lia; destruct I as [I|[I|[I|[I|[]]]]]; injection I as <- <-; lia). lia. }
  assert (G : forall k x m tw, In (k, tw) [("i8", 8); ("i16", 16); ("i32", 32); ("i64", 64)]%string ->
     m <= tw -> - 2 ^ (m - 1) <= x < 2 ^ (m - 1) -> rust_value k (VInt x)).
  { intros k x m tw I M X. apply (rv_i k tw); [exact I|].
    assert (2 ^ (m - 1) <= 2 ^ (tw - 1)) by (apply Z.pow_le_mono_r; lia). lia. }
  intros T n v bs H W. destruct H.
  - destruct b as [[]|[]|[]|t|t| | | | | | |]; cbn in H; try discriminate; injection H as <- <-.
    + destruct W as [<-|[<-|[<-|[<-|[]]]]]; cbn; (eapply U; [|apply Z.le_refl|eassumption]; cbn; auto 10).
    + cbn. eapply (U _ _ _ 64); [|apply H1|eassumption]; cbn; auto 10.
    + cbn. eapply (U _ _ _ 64); [|apply H1|eassumption]; cbn; auto 10.
  - destruct b as [[]|[]|[]|t|t| | | | | | |]; cbn in H; try discriminate; injection H as <- <-.
    + destruct W as [<-|[<-|[<-|[<-|[]]]]]; cbn; (eapply G; [|apply Z.le_refl|eassumption]; cbn; auto 10).
    + cbn. eapply (G _ _ _ 64); [|apply H1|eassumption]; cbn; auto 10.
    + cbn. eapply (G _ _ _ 64); [|apply H1|eassumption]; cbn; auto 10.
  - destruct t; cbn [rust_of vu_max] in *;
      [eapply (rv_u _ 16)|eapply (rv_u _ 32)|eapply (rv_u _ 64)|eapply (rv_u _ 64)|eapply (rv_u _ 32)]; cbn [In]; auto 10; lia.
  - destruct t; cbn [rust_of vs_max] in *;
      [eapply (rv_i _ 16)|eapply (rv_i _ 32)|eapply (rv_i _ 64)|eapply (rv_i _ 64)]; cbn [In]; auto 10; lia.
  - constructor.
  - constructor. assumption.
  - constructor. assumption.
  - constructor. assumption.
  - constructor. assumption.
  - constructor; [|assumption]. destruct H1 as (Q & _). assert (2 ^ 31 < 2 ^ 32) by reflexivity. lia.
  - destruct H as (Q1 & Q & _). constructor; [|assumption]. assert (2 ^ 31 < 2 ^ 32) by reflexivity. lia.
Qed.

Lemma rust_holds : forall s len T, spelled s len T ->
  exists t rt, type_instantiation s len = Ok t /\ rust_type t = Ok rt
    /\ (forall n v bs, scalar_bits T n v bs -> rust_value rt v).
Proof.
  intros s len T H.
  assert (K : exists t, type_instantiation s len = Ok t /\ rust_type t = Ok (rust_of T)
              /\ match T with BFix _ w => In w [8; 16; 32; 64] | _ => True end).
  { destruct H as [s T H|ds D N|ds D N|e f|e f].
    - exists (Ty true "" s 0 [] [] None).
      repeat (destruct H as [H|H]; [injection H as <- <-; repeat split; cbn; auto 10|]). destruct H.
    - exists (Ty true "" "bit" (numeral 10 ds) [] [] None). split; [|split; [reflexivity|exact I]].
      unfold type_instantiation. change ("bit:" ++ ds)%string with ("bit" ++ String (Ascii.ascii_of_nat 58) ds)%string.
      rewrite bit_width by auto. replace (numeral 10 ds <=? 255) with true by lia. reflexivity.
    - exists (Ty true "" "int" (numeral 10 ds) [] [] None). split; [|split; [reflexivity|exact I]].
      unfold type_instantiation. change ("int:" ++ ds)%string with ("int" ++ String (Ascii.ascii_of_nat 58) ds)%string.
      rewrite bit_width by auto. replace (numeral 10 ds <=? 255) with true by lia. reflexivity.
    - eexists. repeat split.
    - eexists. repeat split. }
  destruct K as (t & A & B & W). exists t, (rust_of T). split; [exact A|]. split; [exact B|].
  intros n v bs V. exact (rust_of_holds T n v bs V W).
Qed.

Lemma packable_named : forall s len T, spelled s len T ->
  exists t, type_instantiation s len = Ok t
    /\ (name_packable (t_name t) = true <->
        match T with BBool | BFloat16 | BFloat32 | BFloat64 | BString | BBytes | BExtern => False | _ => True end).
Proof.
  intros s len T H. destruct H as [s T H|ds D N|ds D N|e f|e f].
  - exists (Ty true "" s 0 [] [] None).
    repeat (destruct H as [H|H]; [injection H as <- <-; split; [reflexivity|]; split; intros Q; try exact I; try discriminate; try reflexivity; destruct Q|]).
    destruct H.
  - exists (Ty true "" "bit" (numeral 10 ds) [] [] None). split; [|repeat split].
    unfold type_instantiation. change ("bit:" ++ ds)%string with ("bit" ++ String (Ascii.ascii_of_nat 58) ds)%string.
    rewrite bit_width by auto. replace (numeral 10 ds <=? 255) with true by lia. reflexivity.
  - exists (Ty true "" "int" (numeral 10 ds) [] [] None). split; [|repeat split].
    unfold type_instantiation. change ("int:" ++ ds)%string with ("int" ++ String (Ascii.ascii_of_nat 58) ds)%string.
    rewrite bit_width by auto. replace (numeral 10 ds <=? 255) with true by lia. reflexivity.
  - eexists. repeat split.
  - eexists. repeat split.
Qed.
