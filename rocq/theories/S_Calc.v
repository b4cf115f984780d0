(** Specification: the rules of S_Rust2 as a calculation. It shows that interpretations
    that follow the rules (S_Whole) exist for every schema; nothing here refers to
    the generated code. *)
From Coq Require Import ZArith List Bool String.
From Verif Require Import M_Base M_Gen M_Expr M_Print S_Expr S_Print S_Rust S_Rust2 M_Comp S_Comp S_Whole.
Import ListNotations.
Open Scope Z_scope.

Definition in_typeb (t : bool * Z) (v : Z) : bool :=
  if fst t then (- 2 ^ (snd t - 1) <=? v) && (v <? 2 ^ (snd t - 1)) else (0 <=? v) && (v <? 2 ^ snd t).
Definition type_eqb (t u : bool * Z) : bool := Bool.eqb (fst t) (fst u) && (snd t =? snd u).
(** The builtin type a reference is. *)
Definition builtin_name (t : tref) : option string :=
  if tr_builtin t && String.eqb (tr_pkg t) "" && (tr_bits t =? 0) && negb (tr_dyn t) then Some (tr_name t)
  else None.
Definition int_of (t : tref) : option (bool * Z) :=
  match builtin_name t with Some m => rust_int_type m | None => None end.

(** Types of operands together. *)
Definition mix (t u : nty) : option nty :=
  match t, u with
  | Typed (s, w), Typed (s', w') => Some (Typed (s && s', Z.max w w'))
  | Free lo hi, Typed t | Typed t, Free lo hi =>
      if in_typeb t lo && in_typeb t hi then Some (Typed t) else None
  | Free lo hi, Free lo' hi' => Some (Free (Z.min lo lo') (Z.max hi hi'))
  end.
Definition compare (t u : nty) : bool :=
  match t, u with
  | Typed t, Typed u => type_eqb t u
  | Free lo hi, Typed t | Typed t, Free lo hi => in_typeb t lo && in_typeb t hi
  | Free lo hi, Free lo' hi' =>
      in_typeb (true, 32) lo && in_typeb (true, 32) hi && in_typeb (true, 32) lo' && in_typeb (true, 32) hi'
  end.
Definition least (x : Z) (l : list Z) : Z := fold_right Z.min x l.
Definition greatest (x : Z) (l : list Z) : Z := fold_right Z.max x l.

Section Calc.
Variables (b : build) (fuel : nat) (sc : scope) (tau : expr -> option rty) (rho : valuation).

Definition leaf_ev (e : expr) : option ev :=
  if schema_leaf e then match eval b fuel sc e with Ok r => Some r | _ => None end else None.
Definition int_type (e : expr) : option (bool * Z) :=
  match leaf_ev e with
  | Some r => match e_rt r, e_nt r with TInt _, Some nt => int_of nt | _, _ => None end
  | None => None
  end.
Definition enum_type (e : expr) : option (bool * Z) :=
  match leaf_ev e with
  | Some r => match e_rt r, tau e with TEnum _ t, Some (RTEnum _) => int_of t | _, _ => None end
  | None => None
  end.
Definition mask_type (e : expr) : option (string * (bool * Z)) :=
  match leaf_ev e with
  | Some r =>
      match e_rt r, tau e with
      | TBitMask _ t, Some (RTMask n s w) =>
          match int_of t with
          | Some u => if is_bitmask r && type_eqb u (s, w) then Some (n, u) else None
          | None => None
          end
      | _, _ => None
      end
  | None => None
  end.
Definition name_type (e : expr) : option rty :=
  match leaf_ev e, tau e with
  | Some _, Some (RTEnum n) => Some (RTEnum n)
  | Some _, Some (RTMask n s w) => Some (RTMask n s w)
  | _, _ => None
  end.
Definition int_at (e : expr) : option Z := match rho e with Some (VI z) => Some z | _ => None end.
Definition valueof_type (e : expr) : option (bool * Z) :=
  match enum_type e with Some t => Some t | None => option_map snd (mask_type e) end.

(** The type of a number. *)
Fixpoint num_type (e : expr) : option nty :=
  match e with
  | ELit (LInt z) => if 0 <=? z then Some (Free z z) else None
  | EParen a => num_type a
  | EUn UMinus a => match num_type a with Some (Typed (true, w)) => Some (Typed (true, w)) | _ => None end
  | EBin o a c =>
      if is_arith o then
        match num_type a, num_type c with Some t, Some u => mix t u | _, _ => None end
      else None
  | ELengthof a => match int_at e with Some _ => Some (Typed (false, 32)) | None => None end
  | ENumbits a =>
      match num_type a with
      | Some (Typed _) => Some (Typed (false, 32))
      | Some (Free lo hi) =>
          if in_typeb (true, 32) lo && in_typeb (true, 32) hi then Some (Typed (false, 32)) else None
      | None => None
      end
  | EValueof a =>
      match valueof_type a, int_at a with Some t, Some _ => Some (Typed t) | _, _ => None end
  | _ => match int_type e, int_at e with Some t, Some _ => Some (Typed t) | _, _ => None end
  end.
Definition same_type (e1 e2 : expr) : bool :=
  match name_type e1, name_type e2, int_at e1, int_at e2 with
  | Some u, Some u', Some _, Some _ => rty_eqb u u'
  | _, _, _, _ => false
  end.
Definition isset_type (e1 e2 : expr) : bool :=
  match mask_type e1, name_type e2, int_at e1, int_at e2 with
  | Some (n, (s, w)), Some u, Some _, Some _ => rty_eqb u (RTMask n s w)
  | _, _, _, _ => false
  end.
Definition is_same (o : binop) : bool := match o with BEq | BNe => true | _ => false end.
Definition bool_at (e : expr) : option bool :=
  match leaf_ev e with
  | Some r => match e_rt r, rho e with TBool _, Some (VB v) => Some v | _, _ => None end
  | None => None
  end.
Fixpoint bool_type (e : expr) : bool :=
  match e with
  | ELit (LBool _) => true
  | EParen a => bool_type a
  | EUn UBang a => bool_type a
  | EBin o a c =>
      is_cmp o && match num_type a, num_type c with Some t, Some u => compare t u | _, _ => false end
      || match o with BLAnd | BLOr => bool_type a && bool_type c | _ => false end
      || is_same o && same_type a c
  | EIsset a c => isset_type a c
  | _ => match bool_at e with Some _ => true | None => false end
  end.

(** The value of a number with its type. *)
Fixpoint calc (e : expr) : option (nty * Z) :=
  match e with
  | ELit (LInt z) => if 0 <=? z then Some (Free z z, z) else None
  | EParen a => calc a
  | EUn UMinus a =>
      match calc a with
      | Some (Typed (true, w), v) => if in_typeb (true, w) (- v) then Some (Typed (true, w), - v) else None
      | _ => None
      end
  | EBin o a c =>
      if is_arith o then
        match calc a, calc c with
        | Some (t, x), Some (u, y) =>
            match m_int o x y with
            | Some (VI z) =>
                match t, u with
                | Free lo hi, Free lo' hi' =>
                    let l := lo :: hi :: lo' :: hi' :: arises o x y z in
                    Some (Free (least lo l) (greatest lo l), z)
                | _, _ =>
                    match mix t u with
                    | Some (Typed k) => if forallb (in_typeb k) (arises o x y z) then Some (Typed k, z) else None
                    | _ => None
                    end
                end
            | _ => None
            end
        | _, _ => None
        end
      else None
  | ELengthof a =>
      match int_at e with
      | Some n => if (0 <=? n) && (n <? 2 ^ 32) then Some (Typed (false, 32), n) else None
      | None => None
      end
  | ENumbits a =>
      match calc a with
      | Some (t, v) =>
          match m_numbits v with
          | Some n =>
              if match t with Typed _ => true | Free lo hi => in_typeb (true, 32) lo && in_typeb (true, 32) hi end
              then Some (Typed (false, 32), n) else None
          | None => None
          end
      | None => None
      end
  | EValueof a =>
      match int_at a with
      | Some v =>
          match enum_type a, mask_type a with
          | Some t, _ => if in_typeb t v then Some (Typed t, v) else None
          | None, Some (_, t) => Some (Typed t, v)
          | None, None => None
          end
      | None => None
      end
  | _ => match int_type e, int_at e with Some t, Some v => Some (Typed t, v) | _, _ => None end
  end.
(** The value of a boolean. *)
Fixpoint judge (e : expr) : option bool :=
  match e with
  | ELit (LBool v) => Some v
  | EParen a => judge a
  | EUn UBang a => option_map negb (judge a)
  | EBin BLAnd a c =>
      match judge a with
      | Some true => judge c
      | Some false => if bool_type c then Some false else None
      | None => None
      end
  | EBin BLOr a c =>
      match judge a with
      | Some false => judge c
      | Some true => if bool_type c then Some true else None
      | None => None
      end
  | EBin o a c =>
      let as_bool o := match o with Some (VB v) => Some v | _ => None end in
      if is_same o && same_type a c then
        match int_at a, int_at c with Some x, Some y => as_bool (m_int o x y) | _, _ => None end
      else if is_cmp o then
        match calc a, calc c with
        | Some (t, x), Some (u, y) => if compare t u then as_bool (m_int o x y) else None
        | _, _ => None
        end
      else None
  | EIsset a c =>
      if isset_type a c then
        match int_at a, int_at c with Some x, Some y => Some (negb (Z.land x y =? 0)) | _, _ => None end
      else None
  | _ => bool_at e
  end.
End Calc.

Section Interp.
Variables (cb : build) (fuel : nat) (P : package).
Notation defs := (pk_defs P).
Notation consts := (pk_consts P).

Definition calc_at (n : nat) (ps fs : list value) : expr -> option (nty * Z) :=
  calc cb fuel (pk_scope P n) (named_type P n) (value_of P n ps fs).
Definition judge_at (n : nat) (ps fs : list value) : expr -> option bool :=
  judge cb fuel (pk_scope P n) (named_type P n) (value_of P n ps fs).
Definition literalsb (t : nty) (T : bool * Z) : bool :=
  match t with Free lo hi => in_typeb T lo && in_typeb T hi | Typed _ => true end.
(** A number, its literals of the type [T]. *)
Definition number_at (n : nat) (ps fs : list value) (e : expr) (T : bool * Z) : option Z :=
  match calc_at n ps fs e with
  | Some (t, z) => if literalsb t T then Some z else None
  | None => None
  end.

(** A number or boolean as an argument of the type [u]. *)
Definition scalar_arg (n : nat) (ps fs : list value) (u : rty) (e : expr) : option value :=
  match u with
  | RTInt s w =>
      match number_at n ps fs e (s, w) with
      | Some z => if in_typeb (s, w) z then Some (VInt z) else None
      | None => None
      end
  | RTBool => option_map VBool (judge_at n ps fs e)
  | RTEnum _ | RTMask _ _ _ =>
      match named_type P n e, value_of P n ps fs e with
      | Some u', Some (VI z) => if rty_eqb u' u then Some (VInt z) else None
      | _, _ => None
      end
  | RTSize => None
  end.
(** An element of an array as an argument of the type [u]. *)
Definition element_arg (n : nat) (ix : option Z) (ps fs : list value) (u : rty) (e : expr) : option value :=
  match e with
  | EElem c EIndex =>
      if direct P n c then
        match source defs n ix ps fs e with
        | Some (MScalar u', v) =>
            match scalar u v with
            | Some (u'', _) => if rty_eqb u' u && rty_eqb u'' u then Some v else None
            | None => None
            end
        | _ => None
        end
      else None
  | _ => None
  end.
Definition first {A} (o o' : option A) : option A := match o with Some a => Some a | None => o' end.

Definition calc_interp : interp :=
  Interp
    (fun n a _ ps fs =>
       defined (first (judge_at n ps fs (a_src a))
                  (option_map (fun z => negb (z =? 0)) (number_at n ps fs (a_src a) (true, 32)))))
    (fun n a _ ps fs =>
       match number_at n ps fs (a_src a) (true, 32) with
       | Some z => if 0 <=? z then Ok z else NoFuel
       | None => NoFuel
       end)
    (fun n _ a _ ps fs =>
       match number_at n ps fs (a_src a) (false, 8) with
       | Some z => if in_typeb (false, 8) z then Ok z else NoFuel
       | None => NoFuel
       end)
    (fun n arr pt a idx ps fs =>
       match a, type_kind P pt with
       | AVal a, MScalar u =>
           defined (first (scalar_arg n ps fs u (a_src a))
                      (element_arg n (element_index arr idx) ps fs u (a_src a)))
       | AObj e, MObject k =>
           match source defs n (element_index arr idx) ps fs e with
           | Some (MObject k', v) => if Nat.eqb k k' then Ok v else NoFuel
           | _ => NoFuel
           end
       | _, _ => NoFuel
       end)
    (fun n e _ ps fs =>
       match S_Comp.path defs n ps fs e with
       | Some (MScalar t, v) =>
           match scalar t v with
           | Some (u, w) => if rty_eqb u t then defined (number_of w) else NoFuel
           | None => NoFuel
           end
       | _ => NoFuel
       end)
    (fun n e =>
       match e with
       | ELit (LInt z) => [z]
       | ELit (LBool v) => [if v then 1 else 0]
       | EUn UMinus (ELit (LInt z)) => [- z]
       | EId m | EDot _ m =>
           match assoc consts m with
           | Some (_, w) => match number_of w with Some z => [z] | None => [] end
           | None => []
           end
       | _ => []
       end).
End Interp.
