(** Specification: a schema as its files declare it, and the values its expressions
    have by the rules for names (S_Link) and for arithmetic (S_Rust2). Nothing here
    refers to the generated code. *)
From Coq Require Import ZArith List Bool String.
From Verif Require Import M_Base M_Var M_Gen M_Expr M_Scope M_Templ M_Pkg S_Pkg M_Link M_Print S_Var S_Expr S_Print S_Rust S_Rust2 S_Link M_Comp S_Comp M_Infer.
Import ListNotations.
Open Scope Z_scope.

(** ** Declarations *)

(** The reference [t], written in package [p], is [u] when all subtypes are replaced. *)
Inductive stands (src : sources) : string -> tref -> tref -> Prop :=
| StHere p t : tr_builtin t = true -> stands src p t t
| StSubtype p t u w : tr_builtin t = false -> sees src p (tr_pkg t) ->
    S_Link.declares src (tr_pkg t) KdSubtype (tr_name t) (BSubtype u) ->
    stands src (tr_pkg t) u w -> stands src p t w.

(** The builtin types; [n] is the number of bits of [bit:n] and [int:n]. *)
Definition builtin (nm : string) (n : Z) : option bty :=
  assoc
    [("int8", BFix true 8); ("int16", BFix true 16); ("int32", BFix true 32); ("int64", BFix true 64);
     ("uint8", BFix false 8); ("uint16", BFix false 16); ("uint32", BFix false 32); ("uint64", BFix false 64);
     ("bit", BBits false n); ("int", BBits true n);
     ("varint16", BVarS VS16); ("varint32", BVarS VS32); ("varint64", BVarS VS64); ("varint", BVarS S_Var.VS);
     ("varuint16", BVarU VU16); ("varuint32", BVarU VU32); ("varuint64", BVarU VU64); ("varuint", BVarU VU);
     ("varsize", BVarU VSIZE); ("bool", BBool); ("string", BString);
     ("float16", BFloat16); ("float32", BFloat32); ("float64", BFloat64);
     ("extern", BExtern); ("bytes", BBytes)]%string nm.

Section Schema.
Variables (src : sources) (home : nat -> string) (P : package).
Notation defs := (pk_defs P).
Notation consts := (pk_consts P).

(** The reference [t] of package [p] is the type [st] of the package [P], whose
    declaration number [k] comes from package [home k]. *)
Definition type_is (p : string) (t : tref) (st : stype) : Prop :=
  match st with
  | SBuiltin b => exists u, stands src p t u /\ builtin (tr_name u) (tr_bits u) = Some b
  | SBits sg _ => exists u, stands src p t u /\ tr_name u = (if sg then "int" else "bit")%string /\ tr_dyn u = true
  | SRef k _ => exists d kd x, nth_error defs k = Some d /\ means src p t (Declared (home k) (sdef_name d) kd x)
  end.
Definition member_is (p : string) (m : string * tref) (f : sfield) : Prop :=
  fst m = sf_name f /\ type_is p (snd m) (sf_ty f).
Definition item_is (t : rty) (m : string) (z : Z) : Prop := assoc consts m = Some (t, VI z).
(** Declaration number [n] of [P] is what its source file says. *)
Definition decl_is (n : nat) (d : sdef) (kd : dkind) (x : body) : Prop :=
  match d, kd, x with
  | SStruct _ ps fl, KdStruct, BCompound false ps' fs' _
  | SUnion _ ps fl, KdUnion, BCompound false ps' fs' _ =>
      Forall2 (member_is (home n)) ps' ps /\ Forall2 (member_is (home n)) fs' fl
  | SChoice _ ps _ cases dflt, KdChoice, BCompound false ps' fs' _ =>
      Forall2 (member_is (home n)) ps' ps /\ Forall2 (member_is (home n)) fs' (scase_fields cases dflt)
  | SEnum nm b items, KdEnum, BEnum names t =>
      type_is (home n) t (SBuiltin b) /\ Forall2 (item_is (RTEnum nm)) names items
  | SMask nm b items, KdBitmask, BMask names t =>
      type_is (home n) t (SBuiltin b)
      /\ exists s w, number_type b = Some (RTInt s w) /\ Forall2 (item_is (RTMask nm s w)) names items
  | _, _, _ => False
  end.
(** A name of the list of constants and items is not declared as something else in
    sight of a declaration, and as a constant it has the type of the list. *)
Definition const_is (n : nat) (m : string) (t : rty) : Prop :=
  (forall q k x, sees src (home n) q -> S_Link.declares src q k m x ->
     k = KdConst /\ exists u st, x = BConst u /\ type_is q u st /\ type_of defs st = MScalar t)
  /\ (forall d k x r, nth_error defs n = Some d -> S_Link.declares src (home n) k (sdef_name d) x ->
      ~ member x m (SyFun r)).

(** The Rust type of what a function with the return type [r] returns. *)
Definition return_type (r : tref) (t : rty) : Prop :=
  tr_builtin r = true
  /\ ((exists s w, rust_int_type (tr_name r) = Some (s, w) /\ t = RTInt s w)
      \/ (tr_name r = "bool"%string /\ t = RTBool)).
(** The function [f] of declaration number [n] is declared, and returns numbers or
    booleans of type [t]; it is not called like a method of Rust's arrays or of the
    bitmasks. *)
Definition call_is (n : nat) (f : string) (t : rty) : Prop :=
  exists d kd x r, nth_error defs n = Some d /\ S_Link.declares src (home n) kd (sdef_name d) x
    /\ member x f (SyFun r) /\ return_type r t /\ f <> "len"%string /\ f <> "bits"%string.

(** The package is the schema. *)
Record is_schema : Prop := {
  is_formed : well_formed src;
  is_clear : forall n d, nth_error defs n = Some d -> unambiguous src (home n);
  is_decl : forall n d, nth_error defs n = Some d ->
    exists kd x, S_Link.declares src (home n) kd (sdef_name d) x /\ decl_is n d kd x;
  is_const : forall m t v, assoc consts m = Some (t, v) ->
    real_ty t /\ val_in t v /\ forall n d, nth_error defs n = Some d -> const_is n m t;
  is_call : forall n ps fs f t v, pk_calls P n ps fs f = Some (t, v) ->
    real_ty t /\ val_in t v /\ call_is n f t }.

(** The scopes of its expressions are those of the loaded schema. *)
Definition scoped (o : string -> hash_order body) (fuel : nat) : Prop :=
  forall n d, nth_error defs n = Some d ->
    pk_scope P n = scope_at fuel (link o (parsed src)) (home n) (Some (sdef_name d)).
End Schema.

(** ** Values of names *)

Section Author.
Variables (cb : build) (fuel : nat) (P : package).
Notation defs := (pk_defs P).
Notation consts := (pk_consts P).

Definition is_union (k : nat) : bool :=
  match nth_error defs k with Some (SUnion _ _ _) => true | _ => false end.
(** Names, members of objects that are not unions, and items [Type.ITEM]. *)
Fixpoint direct (n : nat) (e : expr) : bool :=
  match e with
  | EId m => free_name m
  | EDot a m =>
      free_name m
      && match path_kind P n a with
         | Some (MObject k) => direct n a && negb (is_union k)
         | _ => match a with EId t => free_name t && negb (is_member P n t) | _ => false end
         end
  | _ => false
  end.
(** The object whose function is called by [a()], and the name of the function: [f] is a
    function of the object itself, [o.f] one of the object at [o]. *)
Definition callee (n : nat) (ps fs : list value) (a : expr)
  : option (nat * list value * list value * string) :=
  match a with
  | EId f => Some (n, ps, fs, f)
  | EDot o f =>
      if direct n o then
        match S_Comp.path defs n ps fs o with
        | Some (MObject j, VObj _ ps' fs') => if is_union j then None else Some (j, ps', fs', f)
        | _ => None
        end
      else None
  | _ => None
  end.
(** The value of a name in an object of declaration number [n] with the parameters [ps]
    and fields [fs], if it is a number or boolean of the name's type; lengths of
    arrays; results of functions. *)
Definition value_of (n : nat) (ps fs : list value) : valuation := fun e =>
  match e with
  | EId m =>
      if direct n e then
        match path_kind P n e with
        | Some _ => match S_Comp.path defs n ps fs e with
                    | Some (MScalar t, v) => option_map snd (scalar t v)
                    | _ => None
                    end
        | None => constant consts m
        end
      else None
  | EDot a m =>
      if direct n e then
        match path_kind P n a with
        | Some (MObject _) => match S_Comp.path defs n ps fs e with
                              | Some (MScalar t, v) => option_map snd (scalar t v)
                              | _ => None
                              end
        | _ => constant consts m
        end
      else None
  | ELengthof a =>
      if direct n a then
        match S_Comp.path defs n ps fs a with
        | Some (MArray _, VArr l) => if zlen l <? 2 ^ 64 then Some (VI (zlen l)) else None
        | _ => None
        end
      else None
  | ECall a =>
      match callee n ps fs a with
      | Some (j, ps', fs', f) => option_map snd (pk_calls P j ps' fs' f)
      | None => None
      end
  | _ => None
  end.
(** The enum or bitmask a name belongs to. *)
Definition named_type (n : nat) (e : expr) : option rty :=
  let of_const m := match assoc consts m with Some (t, _) => Some t | None => None end in
  let of_kind k := match k with Some (MScalar t) => Some t | _ => None end in
  match e with
  | EId m => match path_kind P n e with None => of_const m | k => of_kind k end
  | EDot a m => match path_kind P n a with
                | Some (MObject _) => of_kind (path_kind P n e)
                | _ => of_const m
                end
  | _ => None
  end.

Definition number_is (n : nat) (ps fs : list value) (e : expr) (t : nty) (z : Z) : Prop :=
  computes cb fuel (pk_scope P n) (named_type n) (value_of n ps fs) e t z.
Definition truth_is (n : nat) (ps fs : list value) (e : expr) (v : bool) : Prop :=
  decides cb fuel (pk_scope P n) (named_type n) (value_of n ps fs) e v.
(** Literals are of the type [T]. *)
Definition literals (t : nty) (T : bool * Z) : Prop :=
  match t with Free lo hi => in_type T lo /\ in_type T hi | Typed _ => True end.

(** An interpretation of the expressions of a schema that follows the rules. It need
    not give a value to all of them. *)
Record lawful (I : interp) : Prop := {
  (** Conditions: booleans, or numbers that are not zero. *)
  law_cond : forall n a idx ps fs v, in_cond I n a idx ps fs = Ok v ->
    truth_is n ps fs (a_src a) v
    \/ exists t z, number_is n ps fs (a_src a) t z /\ literals t (true, 32) /\ v = negb (z =? 0);
  (** Lengths of arrays and of bit fields: numbers. *)
  law_len : forall n a idx ps fs z, in_len I n a idx ps fs = Ok z ->
    exists t, number_is n ps fs (a_src a) t z /\ literals t (true, 32) /\ 0 <= z;
  law_width : forall n arr a idx ps fs z, in_width I n arr a idx ps fs = Ok z ->
    exists t, number_is n ps fs (a_src a) t z /\ literals t (false, 8) /\ in_type (false, 8) z;
  (** Arguments: numbers of the type of the parameter, booleans, enums and bitmasks,
      elements of arrays, and objects. *)
  law_arg : forall n arr pt a idx ps fs v, in_arg I n arr pt a idx ps fs = Ok v ->
    match a, type_kind P pt with
    | AVal a, MScalar u =>
        match u with
        | RTInt s w => exists t z, number_is n ps fs (a_src a) t z /\ literals t (s, w)
                         /\ in_type (s, w) z /\ v = VInt z
        | RTBool => exists c, truth_is n ps fs (a_src a) c /\ v = VBool c
        | RTEnum _ | RTMask _ _ _ =>
            exists z, named_type n (a_src a) = Some u /\ value_of n ps fs (a_src a) = Some (VI z) /\ v = VInt z
        | RTSize => False
        end
        \/ exists c w, a_src a = EElem c EIndex /\ direct n c = true
             /\ source defs n (element_index arr idx) ps fs (a_src a) = Some (MScalar u, v)
             /\ scalar u v = Some (u, w)
    | AObj e, MObject k => source defs n (element_index arr idx) ps fs e = Some (MObject k, v)
    | _, _ => False
    end;
  (** Selectors of choices: parameters. *)
  law_sel : forall n e idx ps fs z, in_sel I n e idx ps fs = Ok z ->
    exists t v w, S_Comp.path defs n ps fs e = Some (MScalar t, v) /\ scalar t v = Some (t, w)
      /\ number_of w = Some z;
  (** Labels of cases: literals, constants and items. *)
  law_label : forall n e,
    match e with
    | ELit (LInt z) => in_label I n e = [z]
    | ELit (LBool v) => in_label I n e = [if v then 1 else 0]
    | EUn UMinus (ELit (LInt z)) => in_label I n e = [- z]
    | EId m | EDot _ m =>
        forall t w z, assoc consts m = Some (t, w) -> number_of w = Some z -> in_label I n e = [z]
    | _ => True
    end }.

(** ** What is asked of the expressions *)

(** Names are as above, and called functions are those of the object itself, which the
    compiler finds, or of members that are not unions. *)
Fixpoint clean (n : nat) (e : expr) : bool :=
  match e with
  | ELit _ | EIndex => true
  | EParen a | ELengthof a | EValueof a | ENumbits a | EUn _ a => clean n a
  | EElem a i | EIsset a i | EBin _ a i => clean n a && clean n i
  | ETern c a d => clean n c && clean n a && clean n d
  | ECall (EId f) =>
      free_name f && match sc_resolve (pk_scope P n) f false with Some (SyFun _) => true | _ => false end
  | ECall (EDot o f) =>
      free_name f && direct n o
      && match path_kind P n o with Some (MObject k) => negb (is_union k) | _ => false end
  | ECall _ => false
  | EId _ | EDot _ _ => direct n e
  end.
(** Only parameters and the first [i] fields are named. *)
Fixpoint names_before (d : sdef) (i : nat) (e : expr) : bool :=
  match e with
  | ELit _ | EIndex => true
  | EId m => match find_member d m with Some (false, j, _) => Nat.ltb j i | _ => true end
  | EParen a | ECall a | EDot a _ | ELengthof a | EValueof a | ENumbits a | EUn _ a => names_before d i a
  | EElem a c | EIsset a c | EBin _ a c => names_before d i a && names_before d i c
  | ETern c a b => names_before d i c && names_before d i a && names_before d i b
  end.
(** The functions of the object itself that are called. *)
Fixpoint self_calls (e : expr) : list string :=
  match e with
  | ELit _ | EIndex | EId _ => []
  | ECall (EId f) => [f]
  | EParen a | ECall a | EDot a _ | ELengthof a | EValueof a | ENumbits a | EUn _ a => self_calls a
  | EElem a c | EIsset a c | EBin _ a c => self_calls a ++ self_calls c
  | ETern c a b => self_calls c ++ self_calls a ++ self_calls b
  end.
(** [may n i f]: the expressions of field number [i] of declaration number [n] may call
    its function [f]. *)
Variable may : nat -> nat -> string -> Prop.
(** The compiler accepts the expression of field number [i] of declaration number [n],
    and it is in the language of C53. *)
Definition expr_fine (n i : nat) (e : expr) : Prop :=
  (exists r, eval cb fuel (pk_scope P n) e = Ok r)
  /\ (exists ts, gen cb fuel (pk_scope P n) e = Ok ts)
  /\ grouped e /\ plain e /\ clean n e = true
  /\ exists d, nth_error defs n = Some d /\ names_before d i e = true
       /\ forall f, In f (self_calls e) -> may n i f.

(** The types rustc gives to the literals of the printed texts. *)
Definition typed_as (n : nat) (e : expr) (T : bool * Z) : texp :=
  infer cb fuel (pk_scope P n) (own cb fuel (pk_scope P n) e T) e.
Definition cond_typed (n : nat) (e : expr) : texp :=
  match eval cb fuel (pk_scope P n) e with
  | Ok r => match e_rt r with
            | TInt _ | TBitMask _ _ =>
                let T := own cb fuel (pk_scope P n) e (true, 32) in
                XBin RNe (typed_as n e (true, 32)) (XLit (LInt 0) (RTInt (fst T) (snd T)))
            | _ => typed_as n e (true, 32)
            end
  | _ => typed_as n e (true, 32)
  end.
Definition width_typed (n : nat) (arr : bool) (e : expr) : texp :=
  typed_as n e (if width_cast cb fuel (pk_scope P n) arr e then (true, 32) else (false, 8)).
Definition arg_typed (n : nat) (pt : option stype) (e : expr) : texp :=
  typed_as n e (match type_kind P pt with MScalar (RTInt s w) => (s, w) | _ => (true, 32) end).

Definition cond_fine (n i : nat) (a : aexpr) : Prop :=
  expr_fine n i (a_src a) /\ is_ternary (a_src a) = false
  /\ (exists ts, gen_bool cb fuel (pk_scope P n) (a_src a) = Ok ts)
  /\ a_rust a = cond_typed n (a_src a).
Definition len_fine (n i : nat) (a : aexpr) : Prop :=
  expr_fine n i (a_src a) /\ a_rust a = typed_as n (a_src a) (true, 32).
Definition width_fine (n i : nat) (arr : bool) (a : aexpr) : Prop :=
  expr_fine n i (a_src a) /\ a_rust a = width_typed n arr (a_src a).
(** Arguments: names, literals, elements, what is in parentheses, and sums ... of
    them; they do not end in [valueof], and where a number gets a cast, it is not a
    sum ... . *)
Fixpoint arg_form (e : expr) : bool :=
  atomic e || match e with
              | EUn _ a => arg_form a
              | EBin o _ c => is_arith o && arg_form c
              | _ => false
              end.
Definition arg_fine (n i : nat) (pt : option stype) (a : sarg) : Prop :=
  match a with
  | AVal a =>
      expr_fine n i (a_src a) /\ a_rust a = arg_typed n pt (a_src a)
      /\ arg_form (a_src a) = true /\ ends_valueof (a_src a) = false
      /\ (forall r s, eval cb fuel (pk_scope P n) (a_src a) = Ok r -> e_rt r <> TString s)
      /\ (arg_cast cb fuel (pk_scope P n) (target_name P pt) (a_src a) = None \/ is_binary (a_src a) = false)
  | AObj e =>
      expr_fine n i e
      /\ exists k, type_kind P pt = MObject k
           /\ (direct n e = true /\ path_kind P n e = Some (MObject k)
               \/ exists c, e = EElem c EIndex /\ direct n c = true /\ path_kind P n c = Some (MArray (MObject k)))
  end.
Fixpoint args_fine (n i k j : nat) (args : list sarg) : Prop :=
  match args with
  | [] => True
  | a :: t => arg_fine n i (parameter_type defs k j) a /\ args_fine n i k (S j) t
  end.

Section Rank.
Variable rank : nat -> nat.
Definition field_fine (n i : nat) (f : sfield) : Prop :=
  opt_ok (cond_fine n i) (sf_clause f)
  /\ opt_ok (fun a => opt_ok (len_fine n i) (sa_len a)) (sf_array f)
  /\ match sf_ty f with
     | SBuiltin b => True
     | SBits _ a => width_fine n i (is_array f) a
     | SRef k args => args_fine n i k 0 args
     end
  /\ 0 <= sf_align f /\ ref_of P rank n f.
(** Labels are literals, names of constants, and items. *)
Definition label_fine (n : nat) (e : expr) : Prop :=
  match e with
  | ELit (LInt _) | ELit (LBool _) | EUn UMinus (ELit (LInt _)) => True
  | EId m => is_member P n m = false /\ direct n e = true /\ (exists v, assoc consts m = Some v /\ number_of (snd v) <> None)
  | EDot a m => (exists t, a = EId t) /\ direct n e = true /\ path_kind P n a = None
                /\ (exists v, assoc consts m = Some v /\ number_of (snd v) <> None)
  | _ => False
  end
  /\ (exists r, eval cb fuel (pk_scope P n) e = Ok r)
  /\ (exists ts, gen cb fuel (pk_scope P n) e = Ok ts).
Definition def_fine (n : nat) (d : sdef) : Prop :=
  Forall (param_ok P rank n) (sdef_params d)
  /\ (forall i f, nth_error (sdef_fields d) i = Some f -> field_fine n i f)
  /\ match d with
     | SChoice _ _ sel cases _ =>
         (exists m t, sel = EId m /\ existsb (named m) (sdef_params d) = true
            /\ path_kind P n sel = Some (MScalar t))
         /\ Forall (fun c : list expr * option sfield => Forall (label_fine n) (fst c)) cases
     | SEnum _ b l | SMask _ b l =>
         (match b with BFix _ _ | BBits _ _ | BVarU _ | BVarS _ => True | _ => False end) /\ l <> []
     | _ => True
     end.
End Rank.

Definition fine_with : Prop :=
  exists rank, forall n d, nth_error defs n = Some d -> def_fine rank n d.
End Author.
(** Called functions read only what is there. *)
Definition fine (cb : build) (fuel : nat) (P : package) : Prop := fine_with cb fuel P (call_before P).

(** Two interpretations agree where both give a value. *)
Definition agree (I J : interp) : Prop :=
  (forall n a idx ps fs v w, in_cond I n a idx ps fs = Ok v -> in_cond J n a idx ps fs = Ok w -> v = w)
  /\ (forall n a idx ps fs v w, in_len I n a idx ps fs = Ok v -> in_len J n a idx ps fs = Ok w -> v = w)
  /\ (forall n arr a idx ps fs v w, in_width I n arr a idx ps fs = Ok v -> in_width J n arr a idx ps fs = Ok w -> v = w)
  /\ (forall n arr pt a idx ps fs v w, in_arg I n arr pt a idx ps fs = Ok v -> in_arg J n arr pt a idx ps fs = Ok w -> v = w)
  /\ (forall n e idx ps fs v w, in_sel I n e idx ps fs = Ok v -> in_sel J n e idx ps fs = Ok w -> v = w).
