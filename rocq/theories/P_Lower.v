(** Proofs: the types of members, and schemas, are what the specification says. *)
From Coq Require Import ZArith List Bool String Lia.
From Verif Require Import M_Base M_Var M_Array M_Gen S_Var M_Expr M_Print S_Rust M_Comp S_Comp.
Import ListNotations.

Lemma number_type_is b : bty_rty b = number_type b.
Proof. destruct b as [| | |[]|[]| | | | | | |]; reflexivity. Qed.
Lemma type_of_is defs t : stype_kind defs t = type_of defs t.
Proof.
  destruct t; cbn [stype_kind type_of]; try reflexivity.
  - rewrite number_type_is. reflexivity.
  - destruct (nth_error defs n) as [[]|]; try reflexivity. rewrite number_type_is. reflexivity.
Qed.
Lemma member_type_is defs f : member_kind defs f = member_type defs f.
Proof. unfold member_kind, member_type. rewrite type_of_is. reflexivity. Qed.
Lemma parameter_type_is defs k j : param_type defs k j = parameter_type defs k j.
Proof.
  unfold param_type, parameter_type. destruct (nth_error defs k) as [[]|]; try reflexivity; destruct j; reflexivity.
Qed.
Lemma element_index_is arr i : index_at arr i = element_index arr i.
Proof. reflexivity. Qed.

Section Lower.
Variables (I : interp) (defs : list sdef).
Lemma lower_args_is n arr k args : forall j, lower_args I defs n arr k j args
  = map (fun '(j, a) => in_arg I n arr (parameter_type defs k j) a) (combine (seq j (List.length args)) args).
Proof.
  induction args as [|a t IH]; intros j; [reflexivity|]. cbn [lower_args List.length seq combine map].
  rewrite parameter_type_is, IH. reflexivity.
Qed.
Lemma lower_field_is n f : lower_field I defs n f = field_meant I defs n f.
Proof.
  unfold lower_field, field_meant. f_equal.
  destruct (sf_ty f); cbn [lower_type type_meant]; destruct (sf_array f); try reflexivity;
    unfold numbered; rewrite lower_args_is; reflexivity.
Qed.
Lemma lower_fields_is n l : map (lower_field I defs n) l = map (field_meant I defs n) l.
Proof. apply map_ext. apply lower_field_is. Qed.
Lemma lower_opt_is n o : option_map (lower_field I defs n) o = option_map (field_meant I defs n) o.
Proof. destruct o; [cbn; rewrite lower_field_is|]; reflexivity. Qed.
Lemma lower_def_is n d : lower_def I defs n d = decl_meant I defs n d.
Proof.
  destruct d; cbn [lower_def decl_meant]; rewrite ?lower_fields_is; try reflexivity. f_equal.
  - apply map_ext. intros [l f]. cbn [fst snd]. rewrite flat_map_concat_map, lower_opt_is. reflexivity.
  - destruct dflt as [o|]; [cbn; rewrite lower_opt_is|]; reflexivity.
Qed.
Lemma lower_is : lower I defs = schema_of I defs.
Proof.
  unfold lower, schema_of, numbered. generalize 0%nat as n. generalize defs at 2 4 5 as l.
  induction l as [|d t IH]; intros n; [reflexivity|]. cbn [lower_defs List.length seq combine map].
  rewrite lower_def_is, IH. reflexivity.
Qed.
End Lower.
