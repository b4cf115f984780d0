(** The printed lines are those of statement trees, and parsing gives the trees back. *)
From Coq Require Import ZArith List Bool String Lia.
From Verif Require Import M_Base M_Gen M_Expr M_Comp M_Code.
Import ListNotations.
Open Scope string_scope.
Open Scope list_scope.
Open Scope Z_scope.

(** ** Lines of a tree *)
Fixpoint flat (s : stmt) : list line :=
  let fix go (l : list stmt) : list line := match l with [] => [] | a :: t => flat a ++ go t end in
  match s with
  | Do l => [l]
  | Block h b None => h :: go b ++ [LClose]
  | Block h b (Some c) => h :: go b ++ LElse :: go c ++ [LClose]
  | Cases h arms =>
      h :: (fix ga (l : list (line * list stmt)) : list line :=
              match l with
              | [] => []
              | (a, b) :: t =>
                  match a with
                  | LArmUnit => [a]
                  | LArmParen => a :: go b ++ [LCloseParen]
                  | _ => a :: go b ++ [LCloseArm]
                  end ++ ga t
              end) arms ++ [LClose]
  end.
Definition flats (l : list stmt) : list line := flat_map flat l.
Definition flat_arm (a : line) (b : list stmt) : list line :=
  match a with
  | LArmUnit => [a]
  | LArmParen => a :: flats b ++ [LCloseParen]
  | _ => a :: flats b ++ [LCloseArm]
  end.
Definition flat_arms (arms : list (line * list stmt)) : list line :=
  flat_map (fun ab => flat_arm (fst ab) (snd ab)) arms.

Lemma go_flats l : (fix go (l : list stmt) : list line := match l with [] => [] | a :: t => flat a ++ go t end) l = flats l.
Proof. induction l as [|a t IH]; [reflexivity|]. unfold flats in *. cbn [flat_map]. now rewrite IH. Qed.
Lemma flat_block h b : flat (Block h b None) = h :: flats b ++ [LClose].
Proof. cbn [flat]. now rewrite go_flats. Qed.
Lemma flat_else h b c : flat (Block h b (Some c)) = h :: flats b ++ LElse :: flats c ++ [LClose].
Proof. cbn [flat]. now rewrite !go_flats. Qed.
Lemma flat_cases h arms : flat (Cases h arms) = h :: flat_arms arms ++ [LClose].
Proof.
  cbn [flat]. do 2 f_equal. induction arms as [|[a b] t IH]; [reflexivity|].
  unfold flat_arms in *. cbn [flat_map fst snd]. rewrite IH. unfold flat_arm. rewrite go_flats. reflexivity.
Qed.
Lemma flats_app l m : flats (l ++ m) = flats l ++ flats m.
Proof. apply flat_map_app. Qed.
Lemma flats_cons a l : flats (a :: l) = flat a ++ flats l.
Proof. reflexivity. Qed.
Lemma flats_do l : flats (map Do l) = l.
Proof. induction l as [|a t IH]; [reflexivity|]. rewrite map_cons, flats_cons, IH. reflexivity. Qed.

(** ** Trees that are printed so that they can be parsed *)
Fixpoint good (s : stmt) : Prop :=
  let fix go (l : list stmt) : Prop := match l with [] => True | a :: t => good a /\ go t end in
  match s with
  | Do l => shape_of l = Plain
  | Block h b e =>
      (exists w, shape_of h = Opens w /\ (e <> None -> w = true)) /\ go b
      /\ match e with Some c => go c | None => True end
  | Cases h arms =>
      shape_of h = Matches
      /\ (fix ga (l : list (line * list stmt)) : Prop :=
            match l with
            | [] => True
            | (a, b) :: t =>
                match a with
                | LArmUnit => b = []
                | LArmParen => is_expr b = true /\ go b
                | LArm _ | LArmVariant _ => go b
                | _ => False
                end /\ ga t
            end) arms
  end.
Definition goods (l : list stmt) : Prop := Forall good l.
Definition good_arm (ab : line * list stmt) : Prop :=
  match fst ab with
  | LArmUnit => snd ab = []
  | LArmParen => is_expr (snd ab) = true /\ goods (snd ab)
  | LArm _ | LArmVariant _ => goods (snd ab)
  | _ => False
  end.
Lemma go_goods l : (fix go (l : list stmt) : Prop := match l with [] => True | a :: t => good a /\ go t end) l <-> goods l.
Proof.
  unfold goods. induction l as [|a t IH]; [split; constructor|]. split.
  - intros [A B]. constructor; [exact A|apply IH, B].
  - intros H. inversion H; subst. split; [assumption|apply IH; assumption].
Qed.
Lemma good_block h b e : good (Block h b e) <->
  (exists w, shape_of h = Opens w /\ (e <> None -> w = true)) /\ goods b
  /\ match e with Some c => goods c | None => True end.
Proof.
  cbn [good]. rewrite go_goods. destruct e as [c|]; [rewrite go_goods|]; reflexivity.
Qed.
Lemma good_cases h arms : good (Cases h arms) <-> shape_of h = Matches /\ Forall good_arm arms.
Proof.
  cbn [good]. apply and_iff_compat_l. induction arms as [|[a b] t IH]; [split; constructor|].
  rewrite IH. rewrite Forall_cons_iff. unfold good_arm at 1. cbn [fst snd].
  apply and_iff_compat_r. destruct a; try reflexivity; try (rewrite go_goods; reflexivity).
Qed.
Lemma goods_app l m : goods l -> goods m -> goods (l ++ m).
Proof. intros A B. apply Forall_app. split; assumption. Qed.
Lemma goods_do l : Forall (fun a => shape_of a = Plain) l -> goods (map Do l).
Proof. unfold goods. induction 1; cbn [map]; constructor; assumption. Qed.

Definition stops (r : list line) : Prop := match r with [] => True | l :: _ => shape_of l = Ends end.

Lemma parse_flat g : (forall l r, goods l -> stops r -> (List.length (flats l ++ r) < g)%nat ->
    parse g (flats l ++ r) = Some (l, r))
  /\ (forall arms r, Forall good_arm arms -> (List.length (flat_arms arms ++ LClose :: r) < g)%nat ->
    parse_arms g (flat_arms arms ++ LClose :: r) = Some (arms, LClose :: r)).
Proof.
  induction g as [|g [IH IHA]]; [split; intros; lia|]. split.
  - intros [|s ss] r G S L.
    + cbn [flats flat_map app]. destruct r as [|a r]; [reflexivity|]. cbn [stops] in S. cbn [parse]. rewrite S. reflexivity.
    + inversion G as [|? ? Gs Gss]; subst. rewrite flats_cons, <- app_assoc in *.
      destruct s as [a|h b e|h arms].
      * cbn [flat app] in *. cbn [good] in Gs. cbn [List.length] in L. cbn [parse]. rewrite Gs.
        rewrite IH; [reflexivity|assumption|assumption|lia].
      * apply good_block in Gs. destruct Gs as ((w & Gh & We) & Gb & Ge).
        destruct e as [c|].
        -- rewrite flat_else in *. cbn [app] in *. rewrite <- app_assoc in *. cbn [app] in *.
           rewrite <- app_assoc in *. cbn [app] in *. cbn [List.length] in L. rewrite app_length in L. cbn [List.length] in L.
           rewrite app_length in L. cbn [List.length] in L.
           cbn [parse]. rewrite Gh. rewrite IH; [|assumption|reflexivity|rewrite app_length; cbn [List.length]; rewrite app_length; cbn [List.length]; lia].
           rewrite (We ltac:(discriminate)). rewrite IH; [|assumption|reflexivity|rewrite app_length; cbn [List.length]; lia].
           rewrite IH; [reflexivity|assumption|assumption|lia].
        -- rewrite flat_block in *. cbn [app] in *. rewrite <- app_assoc in *. cbn [app] in *. cbn [List.length] in L.
           rewrite app_length in L. cbn [List.length] in L.
           cbn [parse]. rewrite Gh. rewrite IH; [|assumption|reflexivity|rewrite app_length; cbn [List.length]; lia].
           rewrite IH; [reflexivity|assumption|assumption|lia].
      * apply good_cases in Gs. destruct Gs as [Gh Ga]. rewrite flat_cases in *. cbn [app] in *. rewrite <- app_assoc in *.
        cbn [app] in *. cbn [List.length] in L. rewrite app_length in L. cbn [List.length] in L.
        cbn [parse]. rewrite Gh. rewrite IHA; [|assumption|rewrite app_length; cbn [List.length]; lia].
        rewrite IH; [reflexivity|assumption|assumption|lia].
  - intros [|[a b] arms] r G L; [reflexivity|]. inversion G as [|? ? Ga Gt]; subst. unfold good_arm in Ga. cbn [fst snd] in Ga.
    unfold flat_arms in *. cbn [flat_map fst snd] in *. rewrite <- app_assoc in *.
    destruct a; try contradiction; cbn [flat_arm app] in *.
    + rewrite <- app_assoc in *. cbn [app] in *. cbn [List.length] in L. rewrite app_length in L. cbn [List.length] in L.
      cbn [parse_arms]. rewrite IH; [|assumption|reflexivity|rewrite app_length; cbn [List.length]; lia].
      rewrite IHA; [reflexivity|assumption|lia].
    + rewrite <- app_assoc in *. cbn [app] in *. cbn [List.length] in L. rewrite app_length in L. cbn [List.length] in L.
      cbn [parse_arms]. rewrite IH; [|assumption|reflexivity|rewrite app_length; cbn [List.length]; lia].
      rewrite IHA; [reflexivity|assumption|lia].
    + destruct Ga as [Gx Ga]. rewrite <- app_assoc in *. cbn [app] in *. cbn [List.length] in L. rewrite app_length in L. cbn [List.length] in L.
      cbn [parse_arms]. rewrite IH; [|assumption|reflexivity|rewrite app_length; cbn [List.length]; lia].
      rewrite Gx. rewrite IHA; [reflexivity|assumption|lia].
    + subst b. cbn [List.length] in L. cbn [parse_arms]. rewrite IHA; [reflexivity|assumption|lia].
Qed.

Lemma parse_body_flat l : goods l -> parse_body (flats l) = Some l.
Proof.
  intros G. unfold parse_body. rewrite <- (app_nil_r (flats l)). 
  rewrite (proj1 (parse_flat _)); [reflexivity|assumption|exact Logic.I|rewrite app_nil_r; lia].
Qed.

(** ** The trees of the printed bodies *)
Section Trees.
Variable defs : list sdef.

Definition clause_tree (f : sfield) (b : list stmt) : list stmt :=
  match sf_clause f with Some a => [Block (LIf a) b None] | None => b end.
Lemma clause_flat f b : flats (clause_tree f b) = open_clause f ++ flats b ++ close_clause f.
Proof.
  unfold clause_tree, open_clause, close_clause. destruct (sf_clause f); [|now rewrite app_nil_r].
  rewrite flats_cons, flat_block. cbn [app flats flat_map]. now rewrite app_nil_r.
Qed.
Lemma clause_good f b : goods b -> goods (clause_tree f b).
Proof.
  intros G. unfold clause_tree. destruct (sf_clause f); [|assumption]. constructor; [|constructor].
  apply good_block. split; [exists true; split; reflexivity|]. split; [assumption|exact Logic.I].
Qed.

Definition let_tree (force : bool) (f : sfield) : list stmt := map Do (let_array force f).
Lemma let_flat force f : flats (let_tree force f) = let_array force f.
Proof. apply flats_do. Qed.
Lemma let_good force f : goods (let_tree force f).
Proof. apply goods_do. unfold let_array. destruct (sf_array f); repeat constructor. Qed.

Definition checks_tree (f : sfield) (p : spot) : list stmt :=
  let k := type_number (sf_ty f) in
  let args := type_args (sf_ty f) in
  match args with
  | [] => []
  | _ =>
    match sf_array f with
    | Some _ =>
        [Block (if existsb uses_index args then LForIndex p else LForIn p)
           (map Do (map (LAssertArg (OnVar "element") k) (inits defs k 0 args))) None]
    | None => map Do (map (LAssertArg p k) (inits defs k 0 args))
    end
  end.
Lemma plain_asserts p k l : Forall (fun a => shape_of a = Plain) (map (LAssertArg p k) l).
Proof. induction l; cbn [map]; constructor; [reflexivity|assumption]. Qed.
Lemma checks_flat f p : flats (checks_tree f p) = write_checks defs f p.
Proof.
  unfold checks_tree, write_checks. destruct (type_args (sf_ty f)); [reflexivity|].
  destruct (sf_array f); [|apply flats_do]. rewrite flats_cons, flat_block, flats_do. cbn [flats flat_map]. now rewrite app_nil_r.
Qed.
Lemma checks_good f p : goods (checks_tree f p).
Proof.
  unfold checks_tree. destruct (type_args (sf_ty f)); [constructor|].
  destruct (sf_array f); [|apply goods_do, plain_asserts]. constructor; [|constructor]. apply good_block.
  split; [exists false; destruct (existsb _ _); split; try reflexivity; intros H; now destruct H|].
  split; [apply goods_do, plain_asserts|exact Logic.I].
Qed.

Definition head_lines (l : list line) (b : list stmt) : list stmt := map Do l ++ b.

Definition write_pre (f : sfield) : list line :=
  (if sf_align f =? 0 then [] else [LAlignWriter (sf_align f)]) ++ (if by_offset f then [LAlignWriter 8] else []).
Definition write_payload (packed : bool) (i : nat) (f : sfield) (p : spot) : list stmt :=
  checks_tree f p
  ++ map Do match sf_array f with
            | Some a => match sa_len a with Some e => [LAssertLen p e] | None => [] end
                        ++ [LArrayWrite (array_name f) p (by_index f)]
            | None => write_type (packed && packable f) i (sf_ty f) p
            end.
Definition write_tree (packed : bool) (i : nat) (f : sfield) : list stmt :=
  clause_tree f
    (map Do (write_pre f)
     ++ if sf_optional f
        then [Block (LIfSome (OnMember (sf_name f))) (Do (LWriteBool true) :: write_payload packed i f (OnVar "x"))
                (Some [Do (LWriteBool false)])]
        else write_payload packed i f (OnMember (sf_name f))).
Lemma write_flat packed i f : flats (write_tree packed i f) = write_field defs packed i f.
Proof.
  unfold write_tree, write_field, write_pre, write_payload. rewrite clause_flat, flats_app, flats_do.
  rewrite <- !app_assoc. do 3 f_equal.
  destruct (sf_optional f).
  - rewrite flats_cons, flat_else, flats_cons, flats_app, checks_flat, flats_do. cbn [flat flats flat_map app].
    rewrite app_nil_r. rewrite <- !app_assoc. reflexivity.
  - rewrite flats_app, checks_flat, flats_do. rewrite <- !app_assoc. reflexivity.
Qed.
Lemma write_type_plain packed i t p : Forall (fun a => shape_of a = Plain) (write_type packed i t p).
Proof. unfold write_type. destruct t; repeat constructor; destruct packed; try reflexivity; cbn [andb]; try (destruct (never_packed _)); reflexivity. Qed.
Lemma write_payload_good packed i f p : goods (write_payload packed i f p).
Proof.
  apply goods_app; [apply checks_good|]. apply goods_do. destruct (sf_array f) as [a|]; [|apply write_type_plain].
  destruct (sa_len a); repeat constructor.
Qed.
Lemma write_good packed i f : goods (write_tree packed i f).
Proof.
  apply clause_good, goods_app.
  - apply goods_do. unfold write_pre. destruct (sf_align f =? 0), (by_offset f); repeat constructor.
  - destruct (sf_optional f); [|apply write_payload_good]. constructor; [|constructor]. apply good_block.
    split; [exists true; split; reflexivity|]. split; [constructor; [reflexivity|apply write_payload_good]|repeat constructor].
Qed.

Definition size_pre (f : sfield) : list line :=
  (if sf_align f =? 0 then [] else [LAddAlign (sf_align f)]) ++ (if by_offset f then [LAddAlign 8] else []).
Definition size_payload (packed : bool) (i : nat) (f : sfield) (p : spot) : list stmt :=
  map Do match sf_array f with
         | Some _ => [LArraySize (array_name f) p (by_index f)]
         | None => size_type (packed && packable f) i (sf_ty f) p
         end.
Definition size_tree (packed : bool) (i : nat) (f : sfield) : list stmt :=
  clause_tree f
    (map Do (size_pre f)
     ++ if sf_optional f
        then [Do LAddOne; Block (LIfSome (OnMember (sf_name f))) (size_payload packed i f (OnVar "x")) None]
        else size_payload packed i f (OnMember (sf_name f))).
Lemma size_flat packed i f : flats (size_tree packed i f) = size_field packed i f.
Proof.
  unfold size_tree, size_field, size_pre, size_payload. rewrite clause_flat, flats_app, flats_do.
  rewrite <- !app_assoc. do 3 f_equal.
  destruct (sf_optional f).
  - rewrite !flats_cons, flat_block, flats_do. cbn [flat flats flat_map app].
    rewrite app_nil_r. rewrite <- !app_assoc. reflexivity.
  - rewrite flats_do. reflexivity.
Qed.
Lemma size_type_plain packed i t p : Forall (fun a => shape_of a = Plain) (size_type packed i t p).
Proof.
  unfold size_type. destruct t; repeat constructor; destruct packed; try reflexivity; cbn [andb];
    try (destruct (never_packed _)); cbn [negb andb]; try (destruct (fixed_bits _)); reflexivity.
Qed.
Lemma size_payload_good packed i f p : goods (size_payload packed i f p).
Proof. apply goods_do. destruct (sf_array f) as [a|]; [repeat constructor|apply size_type_plain]. Qed.
Lemma size_good packed i f : goods (size_tree packed i f).
Proof.
  apply clause_good, goods_app.
  - apply goods_do. unfold size_pre. destruct (sf_align f =? 0), (by_offset f); repeat constructor.
  - destruct (sf_optional f); [|apply size_payload_good]. constructor; [reflexivity|]. constructor; [|constructor]. apply good_block.
    split; [exists true; split; reflexivity|]. split; [apply size_payload_good|exact Logic.I].
Qed.

Definition items_tree (f : sfield) (p : spot) : list stmt :=
  let k := type_number (sf_ty f) in
  let l := inits defs k 0 (type_args (sf_ty f)) in
  let late q := uses_index (it_arg q) in
  let delay := existsb late l in
  map Do [LClear p; LReserve p (length_name f); LLetContext (packing_name f) (array_name f)]
  ++ [Block (LForRange (length_name f))
        (map Do (LLetLiteral "zs_item" k (filter (fun q => negb (late q)) l) (Nat.ltb 0 (data_fields defs k) || delay)
                 :: (if delay then map (LSetItem "zs_item" k) (filter late l) else [])
                 ++ [LReadOne (array_name f) (packing_name f) "zs_item" (by_index f); LPush p "zs_item"])) None].
Lemma items_flat f p : flats (items_tree f p) = read_items defs f p.
Proof.
  unfold items_tree, read_items. rewrite flats_app, flats_do, flats_cons, flat_block, flats_do. cbn [flats flat_map app].
  rewrite app_nil_r. rewrite <- !app_assoc. reflexivity.
Qed.
Lemma items_good f p : goods (items_tree f p).
Proof.
  apply goods_app; [apply goods_do; repeat constructor|]. constructor; [|constructor]. apply good_block.
  split; [exists false; split; [reflexivity|intros H; now destruct H]|]. split; [|exact Logic.I]. apply goods_do. constructor; [reflexivity|].
  apply Forall_app. split; [|repeat constructor]. destruct (existsb _ _); [|constructor].
  induction (filter _ _); cbn [map]; constructor; [reflexivity|assumption].
Qed.

Definition read_pre (f : sfield) : list line :=
  (if sf_align f =? 0 then [] else [LAlignReader (sf_align f)]) ++ (if by_offset f then [LAlignReader 8] else []).
Definition read_payload (packed : bool) (i : nat) (f : sfield) (p : spot) : list stmt :=
  let k := type_number (sf_ty f) in
  let args := type_args (sf_ty f) in
  match sf_array f with
  | Some _ =>
      Do (LArrayLength (length_name f) (array_name f))
      :: match args with
         | [] => [Do (LArrayRead (array_name f) (sf_ty f) p (length_name f) (by_index f))]
         | _ => items_tree f p
         end
  | None =>
      map Do ([match args with
               | [] => LLetDefault "initial_value" false (sf_ty f)
               | _ => LLetLiteral "initial_value" k (inits defs k 0 args) (Nat.ltb 0 (all_fields defs k))
               end;
               LAssign p "initial_value"]
              ++ read_type (packed && packable f) i (sf_ty f) (ToSpot p) p)
  end.
Definition read_inner (packed : bool) (i : nat) (f : sfield) : list stmt :=
  map Do (read_pre f)
  ++ if sf_optional f
     then [Do LLetPresent;
           Block LIfPresent
             (Do (LLetDefault "optional_value" (match sf_array f with Some _ => true | None => false end) (sf_ty f))
              :: read_payload packed i f (OnVar "optional_value") ++ [Do (LStore (sf_name f))]) None]
     else read_payload packed i f (OnMember (sf_name f)).
Definition read_tree (packed : bool) (i : nat) (f : sfield) : list stmt :=
  [Block (match sf_clause f with Some a => LIf a | None => LOpen end) (read_inner packed i f) None].
Lemma read_payload_flat packed i f p : flats (read_payload packed i f p)
  = match sf_array f with
     | Some _ =>
         [LArrayLength (length_name f) (array_name f)]
         ++ match type_args (sf_ty f) with
            | [] => [LArrayRead (array_name f) (sf_ty f) p (length_name f) (by_index f)]
            | _ => read_items defs f p
            end
     | None =>
         [match type_args (sf_ty f) with
          | [] => LLetDefault "initial_value" false (sf_ty f)
          | _ => LLetLiteral "initial_value" (type_number (sf_ty f)) (inits defs (type_number (sf_ty f)) 0 (type_args (sf_ty f)))
                   (Nat.ltb 0 (all_fields defs (type_number (sf_ty f))))
          end;
          LAssign p "initial_value"]
         ++ read_type (packed && packable f) i (sf_ty f) (ToSpot p) p
     end.
Proof.
  unfold read_payload. cbv zeta. destruct (sf_array f).
  - rewrite flats_cons. cbn [flat app]. f_equal. destruct (type_args (sf_ty f)); [reflexivity|apply items_flat].
  - apply flats_do.
Qed.
Lemma read_flat packed i f : flats (read_tree packed i f) = read_field defs packed i f.
Proof.
  unfold read_tree, read_field, read_inner, read_pre. rewrite flats_cons, flat_block, flats_app, flats_do.
  cbn [flats flat_map app]. rewrite app_nil_r. f_equal. rewrite <- !app_assoc. do 2 f_equal.
  destruct (sf_optional f).
  - rewrite !flats_cons, flat_block, flats_cons, flats_app, read_payload_flat. cbn [flat flats flat_map app].
    do 3 f_equal. rewrite app_nil_r. rewrite <- !app_assoc. reflexivity.
  - rewrite read_payload_flat. reflexivity.
Qed.
Lemma read_type_plain packed i t g p : Forall (fun a => shape_of a = Plain) (read_type packed i t g p).
Proof. unfold read_type. destruct t; repeat constructor; destruct packed; try reflexivity; cbn [andb]; try (destruct (never_packed _)); reflexivity. Qed.
Lemma read_payload_good packed i f p : goods (read_payload packed i f p).
Proof.
  unfold read_payload. cbv zeta. destruct (sf_array f).
  - constructor; [reflexivity|]. destruct (type_args (sf_ty f)); [repeat constructor|apply items_good].
  - apply goods_do. apply Forall_app. split; [|apply read_type_plain]. destruct (type_args (sf_ty f)); repeat constructor.
Qed.
Lemma read_good packed i f : goods (read_tree packed i f).
Proof.
  constructor; [|constructor]. apply good_block. split.
  { destruct (sf_clause f); [exists true|exists false]; (split; [reflexivity|]); intros H; now destruct H. }
  split; [|exact Logic.I]. apply goods_app.
  - apply goods_do. unfold read_pre. destruct (sf_align f =? 0), (by_offset f); repeat constructor.
  - destruct (sf_optional f); [|apply read_payload_good]. constructor; [reflexivity|]. constructor; [|constructor]. apply good_block.
    split; [exists true; split; reflexivity|]. split; [|exact Logic.I]. constructor; [reflexivity|].
    apply goods_app; [apply read_payload_good|repeat constructor].
Qed.

Definition init_tree (i : nat) (f : sfield) : list stmt :=
  match sf_array f with
  | Some _ => []
  | None =>
    if negb (is_ref (sf_ty f)) && negb (packable f) then []
    else
      let last p := [Do match sf_ty f with SRef k _ => LInitObj p k i | t => LInitCtx i t p end] in
      clause_tree f
        (if sf_optional f then [Block (LIfSome (OnMember (sf_name f))) (last (OnVar "x")) None]
         else last (OnMember (sf_name f)))
  end.
Lemma init_flat i f : flats (init_tree i f) = M_Code.init_field i f.
Proof.
  unfold init_tree, M_Code.init_field. destruct (sf_array f); [reflexivity|]. destruct (_ && _); [reflexivity|].
  cbv zeta. rewrite clause_flat. f_equal. destruct (sf_optional f); [|reflexivity].
  rewrite flats_cons, flat_block. cbn [flat flats flat_map app]. reflexivity.
Qed.
Lemma init_good i f : goods (init_tree i f).
Proof.
  unfold init_tree. destruct (sf_array f); [constructor|]. destruct (_ && _); [constructor|].
  cbv zeta. apply clause_good. destruct (sf_optional f).
  - constructor; [|constructor]. apply good_block. split; [exists true; split; reflexivity|]. split; [|exact Logic.I].
    constructor; [|constructor]. destruct (sf_ty f); reflexivity.
  - constructor; [|constructor]. destruct (sf_ty f); reflexivity.
Qed.

(** ** Types *)
Fixpoint per_tree (i : nat) (g : nat -> sfield -> list stmt) (fl : list sfield) : list stmt :=
  match fl with
  | [] => []
  | f :: t => g i f ++ per_tree (S i) g t
  end.
Lemma per_flat g h fl : (forall i f, flats (g i f) = h i f) -> forall i, flats (per_tree i g fl) = per_field i h fl.
Proof.
  intros H. induction fl as [|f t IH]; intros i; [reflexivity|]. cbn [per_tree per_field]. now rewrite flats_app, H, IH.
Qed.
Lemma per_good g fl : (forall i f, goods (g i f)) -> forall i, goods (per_tree i g fl).
Proof. intros H. induction fl as [|f t IH]; intros i; [constructor|]. cbn [per_tree]. apply goods_app; [apply H|apply IH]. Qed.

Fixpoint arms_tree (i : nat) (cases : list (list expr * option sfield)) (dflt : option (option sfield))
  (packed : bool) (g : nat -> sfield -> list stmt) : list (line * list stmt) :=
  match cases with
  | (es, fo) :: t =>
      (LArm es, match fo with Some f => let_tree packed f ++ g i f | None => [] end)
      :: arms_tree (match fo with Some _ => S i | None => i end) t dflt packed g
  | [] =>
      match dflt with
      | Some fo => [(LArmParen, match fo with Some f => let_tree false f ++ g i f | None => [] end)]
      | None => [(LArmUnit, [])]
      end
  end.
Lemma arms_flat g h dflt packed cases : (forall i f, flats (g i f) = h i f) ->
  forall i, flat_arms (arms_tree i cases dflt packed g) = match_arms i cases dflt packed h.
Proof.
  intros H. induction cases as [|[es fo] t IH]; intros i.
  - cbn [arms_tree match_arms]. destruct dflt as [[f|]|]; try reflexivity.
    unfold flat_arms. cbn [flat_map fst snd flat_arm app]. rewrite app_nil_r, flats_app, let_flat, H. reflexivity.
  - cbn [arms_tree match_arms]. unfold flat_arms in *. cbn [flat_map fst snd flat_arm]. rewrite IH. cbn [app]. f_equal.
    rewrite <- !app_assoc. destruct fo as [f|]; [|reflexivity]. rewrite flats_app, let_flat, H. rewrite <- !app_assoc. reflexivity.
Qed.
(** A default case has no field. *)
Definition no_default_field (d : sdef) : Prop :=
  match d with SChoice _ _ _ _ (Some (Some _)) => False | _ => True end.
Lemma arms_good g dflt packed cases : (forall i f, goods (g i f)) -> match dflt with Some (Some _) => False | _ => True end ->
  forall i, Forall good_arm (arms_tree i cases dflt packed g).
Proof.
  intros H D. induction cases as [|[es fo] t IH]; intros i; cbn [arms_tree].
  - destruct dflt as [[f|]|]; [destruct D|constructor; [split; [reflexivity|constructor]|constructor]|constructor; [reflexivity|constructor]].
  - constructor; [|apply IH]. cbn. destruct fo; [|constructor]. apply goods_app; [apply let_good|apply H].
Qed.
Fixpoint variants_tree (i : nat) (packed : bool) (g : nat -> sfield -> list stmt) (fl : list sfield) : list (line * list stmt) :=
  match fl with
  | [] => []
  | f :: t => (LArmVariant (sf_name f), let_tree packed f ++ g i f) :: variants_tree (S i) packed g t
  end.
Lemma variants_flat g h packed fl : (forall i f, flats (g i f) = h i f) ->
  forall i, flat_arms (variants_tree i packed g fl)
    = per_field i (fun i f => [LArmVariant (sf_name f)] ++ let_array packed f ++ h i f ++ [LCloseArm]) fl.
Proof.
  intros H. induction fl as [|f t IH]; intros i; [reflexivity|]. cbn [variants_tree per_field]. unfold flat_arms in *.
  cbn [flat_map fst snd flat_arm]. rewrite IH, flats_app, let_flat, H. cbn [app]. rewrite <- !app_assoc. cbn [app]. reflexivity.
Qed.
Lemma variants_good g packed fl : (forall i f, goods (g i f)) -> forall i, Forall good_arm (variants_tree i packed g fl).
Proof.
  intros H. induction fl as [|f t IH]; intros i; cbn [variants_tree]; constructor; [|apply IH].
  cbn. apply goods_app; [apply let_good|apply H].
Qed.

Definition field_tree (packed : bool) (g : nat -> sfield -> list stmt) (i : nat) (f : sfield) : list stmt :=
  let_tree packed f ++ g i f.
Definition write_stmts (d : sdef) (packed : bool) : list stmt :=
  match d with
  | SStruct _ _ fl => per_tree 0 (field_tree packed (write_tree packed)) fl
  | SChoice _ _ sel cases dflt => [Cases (LMatch sel) (arms_tree 0 cases dflt packed (write_tree packed))]
  | SUnion _ _ fl => [Do LWriteSelector; Cases LMatchUnion (variants_tree 0 packed (write_tree packed) fl)]
  | SEnum _ b _ | SMask _ b _ => map Do (write_type packed 0 (SBuiltin b) (self_of d))
  end ++ [Do LOk].
Definition read_stmts (d : sdef) (packed : bool) : list stmt :=
  match d with
  | SStruct _ _ fl => per_tree 0 (field_tree packed (read_tree packed)) fl
  | SChoice _ _ sel cases dflt => [Cases (LMatch sel) (arms_tree 0 cases dflt packed (read_tree packed))]
  | SUnion _ _ fl =>
      map Do (if packed then [] else [LReadSelector])
      ++ [Cases LMatchUnion (variants_tree 0 packed (read_tree packed) fl)]
  | SEnum _ b _ | SMask _ b _ =>
      map Do ((if packed then [LLetZero] else [])
              ++ read_type packed 0 (SBuiltin b) (ToLet "v") (OnVar "v")
              ++ [match d with SEnum _ _ _ => LTryFrom | _ => LSetBits end])
  end ++ [Do LOk].
Definition size_stmts (d : sdef) (packed : bool) : list stmt :=
  Do LLetEnd ::
  match d with
  | SStruct _ _ fl => per_tree 0 (field_tree packed (size_tree packed)) fl
  | SChoice _ _ sel cases dflt => [Cases (LMatch sel) (arms_tree 0 cases dflt packed (size_tree packed))]
  | SUnion _ _ fl =>
      map Do (if packed then [] else [LAddSelector])
      ++ [Cases LMatchUnion (variants_tree 0 packed (size_tree packed) fl)]
  | SEnum _ b _ | SMask _ b _ => map Do (size_type packed 0 (SBuiltin b) (self_of d))
  end ++ [Do LSize].
Definition init_stmts (d : sdef) : list stmt :=
  match d with
  | SStruct _ _ _ | SChoice _ _ _ _ _ => per_tree 0 init_tree (sdef_fields d) ++ [Do LOk]
  | SUnion _ _ _ => [Do LOk]
  | SEnum _ b _ | SMask _ b _ => [Do (LInitCtx 0 (SBuiltin b) (self_of d)); Do LOk]
  end.

Lemma one_cases h arms : flats [Cases h arms] = [h] ++ flat_arms arms ++ [LClose].
Proof. rewrite flats_cons, flat_cases. cbn [flats flat_map]. now rewrite app_nil_r. Qed.

Lemma field_flat packed g h : (forall i f, flats (g i f) = h i f) ->
  forall i f, flats (field_tree packed g i f) = let_array packed f ++ h i f.
Proof. intros H i f. unfold field_tree. now rewrite flats_app, let_flat, H. Qed.

Lemma write_stmts_flat d packed : flats (write_stmts d packed) = write_body defs d packed.
Proof.
  unfold write_stmts, write_body. rewrite flats_app. f_equal. destruct d.
  - apply per_flat, field_flat, write_flat.
  - rewrite one_cases. do 2 f_equal. apply arms_flat, write_flat.
  - rewrite flats_cons, one_cases. cbn [flat app]. do 3 f_equal. apply variants_flat, write_flat.
  - apply flats_do.
  - apply flats_do.
Qed.
Lemma read_stmts_flat d packed : flats (read_stmts d packed) = read_body defs d packed.
Proof.
  unfold read_stmts, read_body. rewrite flats_app. f_equal. destruct d.
  - apply per_flat, field_flat, read_flat.
  - rewrite one_cases. do 2 f_equal. apply arms_flat, read_flat.
  - rewrite flats_app, one_cases, flats_do. do 3 f_equal. apply variants_flat, read_flat.
  - apply flats_do.
  - apply flats_do.
Qed.
Lemma size_stmts_flat d packed : flats (size_stmts d packed) = size_body d packed.
Proof.
  unfold size_stmts, size_body. rewrite flats_cons, flats_app. cbn [flat app]. f_equal.
  destruct d; (apply (f_equal (fun l => l ++ [LSize]))).
  - apply per_flat, field_flat, size_flat.
  - rewrite one_cases. cbn [app]. f_equal. apply (f_equal (fun l => l ++ [LClose])). apply arms_flat, size_flat.
  - rewrite flats_app, one_cases, flats_do. f_equal. cbn [app]. f_equal. apply (f_equal (fun l => l ++ [LClose])). apply variants_flat, size_flat.
  - apply flats_do.
  - apply flats_do.
Qed.
Lemma init_stmts_flat d : flats (init_stmts d) = init_body d.
Proof.
  unfold init_stmts, init_body. destruct d; try reflexivity; rewrite flats_app; f_equal; apply per_flat, init_flat.
Qed.
Lemma field_good packed g : (forall i f, goods (g i f)) -> forall i f, goods (field_tree packed g i f).
Proof. intros H i f. apply goods_app; [apply let_good|apply H]. Qed.
Lemma cases_good h arms : shape_of h = Matches -> Forall good_arm arms -> good (Cases h arms).
Proof. intros A B. apply good_cases. split; assumption. Qed.
Lemma write_stmts_good d packed : no_default_field d -> goods (write_stmts d packed).
Proof.
  intros D. apply goods_app; [|repeat constructor]. destruct d.
  - apply per_good, field_good, write_good.
  - constructor; [|constructor]. apply cases_good; [reflexivity|]. apply arms_good; [apply write_good|exact D].
  - constructor; [reflexivity|]. constructor; [|constructor]. apply cases_good; [reflexivity|apply variants_good, write_good].
  - apply goods_do, write_type_plain.
  - apply goods_do, write_type_plain.
Qed.
Lemma read_stmts_good d packed : no_default_field d -> goods (read_stmts d packed).
Proof.
  intros D. apply goods_app; [|repeat constructor]. destruct d.
  - apply per_good, field_good, read_good.
  - constructor; [|constructor]. apply cases_good; [reflexivity|]. apply arms_good; [apply read_good|exact D].
  - apply goods_app; [destruct packed; repeat constructor|]. constructor; [|constructor]. apply cases_good; [reflexivity|apply variants_good, read_good].
  - apply goods_do. apply Forall_app. split; [destruct packed; repeat constructor|]. apply Forall_app. split; [apply read_type_plain|repeat constructor].
  - apply goods_do. apply Forall_app. split; [destruct packed; repeat constructor|]. apply Forall_app. split; [apply read_type_plain|repeat constructor].
Qed.
Lemma size_stmts_good d packed : no_default_field d -> goods (size_stmts d packed).
Proof.
  intros D. constructor; [reflexivity|]. apply goods_app; [|repeat constructor]. destruct d.
  - apply per_good, field_good, size_good.
  - constructor; [|constructor]. apply cases_good; [reflexivity|]. apply arms_good; [apply size_good|exact D].
  - apply goods_app; [destruct packed; repeat constructor|]. constructor; [|constructor]. apply cases_good; [reflexivity|apply variants_good, size_good].
  - apply goods_do, size_type_plain.
  - apply goods_do, size_type_plain.
Qed.
Lemma init_stmts_good d : goods (init_stmts d).
Proof.
  unfold init_stmts. destruct d; try (repeat constructor); (apply goods_app; [apply per_good, init_good|repeat constructor]).
Qed.
Lemma create_plain d : Forall (fun a => shape_of a = Plain) (create_body d).
Proof.
  unfold create_body. assert (forall l, Forall (fun a => shape_of a = Plain) (flat_map M_Code.create_field l)) as H.
  { intros l. induction l as [|f t IH]; cbn [flat_map]; [constructor|]. apply Forall_app. split; [|exact IH].
    unfold M_Code.create_field. repeat (apply Forall_app; split); repeat constructor.
    destruct (sf_array f); [constructor|]. destruct (sf_ty f); [destruct (packable f)|destruct (packable f)|]; repeat constructor. }
  destruct d; try apply H; repeat constructor.
Qed.

(** Every body that is printed parses, if no default case has a field. *)
Lemma write_parses d packed : no_default_field d -> parse_body (write_body defs d packed) = Some (write_stmts d packed).
Proof. intros D. rewrite <- write_stmts_flat. apply parse_body_flat, write_stmts_good, D. Qed.
Lemma read_parses d packed : no_default_field d -> parse_body (read_body defs d packed) = Some (read_stmts d packed).
Proof. intros D. rewrite <- read_stmts_flat. apply parse_body_flat, read_stmts_good, D. Qed.
Lemma size_parses d packed : no_default_field d -> parse_body (size_body d packed) = Some (size_stmts d packed).
Proof. intros D. rewrite <- size_stmts_flat. apply parse_body_flat, size_stmts_good, D. Qed.
Lemma init_parses d : parse_body (init_body d) = Some (init_stmts d).
Proof. rewrite <- init_stmts_flat. apply parse_body_flat, init_stmts_good. Qed.
Lemma create_parses d : parse_body (create_body d) = Some (map Do (create_body d)).
Proof. rewrite <- (flats_do (create_body d)) at 1. apply parse_body_flat, goods_do, create_plain. Qed.
End Trees.
