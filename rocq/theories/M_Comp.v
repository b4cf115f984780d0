(** Model of the generated code of a package with its expressions: declarations as
    the compiler has them after name resolution, the text the generator prints for
    every expression in them, and what this text computes. The result is a schema of
    M_Gen whose functions are runs of the printed Rust expressions.
    Rust is cited as [path:lines]; paths are relative to
    /repo/crates/zserio-rs-build/src/internal; [generator] is a directory there. *)
From Coq Require Import ZArith List Bool String.
From Verif Require Import M_Base M_Bits M_Var M_Prim M_Array S_Var M_Gen M_Expr M_Print S_Expr S_Print S_Rust.
From Verif Require M_Types.
Import ListNotations.
Open Scope Z_scope.

(** ** Declarations *)

(** An expression of the schema, and the types Rust's type inference gives to the
    parts of the text printed for it. *)
Record aexpr := AE { a_src : expr; a_rust : texp }.

(** [ast/type_reference.rs:8-16] type_arguments: a number or boolean, or an object. *)
Inductive sarg := AVal (a : aexpr) | AObj (e : expr).

(** [ast/type_reference.rs:8-16], resolved: a builtin type, [int<e>] or [bit<e>], or
    the number of a declaration and the type arguments. Subtypes are replaced by
    what they stand for, [compiler/fundamental_type.rs:14-61]. *)
Inductive stype :=
| SBuiltin (b : bty)
| SBits (sg : bool) (len : aexpr)
| SRef (n : nat) (args : list sarg).

Record sarray := SA { sa_packed : bool; sa_len : option aexpr }.

(** [ast/field.rs:11-65] Array, Field and [ast/parameter.rs:4-7] Parameter. *)
Record sfield := SF {
  sf_name : string;
  sf_ty : stype;
  sf_clause : option aexpr;
  sf_align : Z;
  sf_offset : offset;
  sf_optional : bool;
  sf_array : option sarray;
  sf_is_offset : bool }.

(** [ast/zstruct.rs], [zchoice.rs], [zunion.rs], [zenum.rs], [zbitmask.rs]; values of
    enum items and bitmask constants are computed by the compiler (see M_Expr). The
    visitor drops the default case of choices (C58), so [dflt] is [None] in practice. *)
Inductive sdef :=
| SStruct (nm : string) (params fields : list sfield)
| SChoice (nm : string) (params : list sfield) (sel : expr)
    (cases : list (list expr * option sfield)) (dflt : option (option sfield))
| SUnion (nm : string) (params fields : list sfield)
| SEnum (nm : string) (b : bty) (items : list Z)
| SMask (nm : string) (b : bty) (values : list Z).

(** The declarations, the constants and items of enums and bitmasks with their Rust
    types and values, and the scope in which the expressions of a declaration are
    evaluated. Items are identified by their name alone, as the text [Type::NAME] is one
    token named NAME in M_Print; different items must have different names here.
    [pk_calls n ps fs f] is the result of the method [f] of an object of declaration
    number [n] with the parameters [ps] and fields [fs], if the call returns (M_Fun). *)
Record package := Package {
  pk_defs : list sdef;
  pk_consts : list (string * (rty * val));
  pk_scope : nat -> scope;
  pk_calls : nat -> list value -> list value -> string -> option (rty * val) }.
(** A package without functions. *)
Definition Pkg (defs : list sdef) (consts : list (string * (rty * val))) (sc : nat -> scope) : package :=
  Package defs consts sc (fun _ _ _ _ => None).

Definition sdef_params (d : sdef) : list sfield :=
  match d with SStruct _ ps _ | SChoice _ ps _ _ _ | SUnion _ ps _ => ps | _ => [] end.
(** [generator/zchoice.rs:33-53] for choices. *)
Definition scase_fields (cases : list (list expr * option sfield)) (dflt : option (option sfield))
  : list sfield :=
  flat_map (fun c => match snd c with Some f => [f] | None => [] end) cases
  ++ match dflt with Some (Some f) => [f] | _ => [] end.
Definition sdef_fields (d : sdef) : list sfield :=
  match d with
  | SStruct _ _ fl | SUnion _ _ fl => fl
  | SChoice _ _ _ cases dflt => scase_fields cases dflt
  | _ => []
  end.
Definition sdef_name (d : sdef) : string :=
  match d with
  | SStruct n _ _ | SChoice n _ _ _ _ | SUnion n _ _ | SEnum n _ _ | SMask n _ _ => n
  end.

(** ** Rust types of members *)

(** [generator/types.rs:106-136], the rows of integers and booleans. *)
Definition bty_rty (b : bty) : option rty :=
  match b with
  | BFix sg w => Some (RTInt sg w)
  | BBits sg _ | BDyn sg _ => Some (RTInt sg 64)
  | BVarU t => Some (RTInt false (vu_width t))
  | BVarS t => Some (RTInt true (vs_width t))
  | BBool => Some RTBool
  | _ => None
  end.

Definition int_name (sg : bool) (w : Z) : string :=
  if sg then
    if w =? 8 then "i8" else if w =? 16 then "i16" else if w =? 32 then "i32" else "i64"
  else
    if w =? 8 then "u8" else if w =? 16 then "u16" else if w =? 32 then "u32" else "u64".
Definition bty_name (b : bty) : string :=
  match b with
  | BFloat16 | BFloat32 => "f32"
  | BFloat64 => "f64"
  | BString => "String"
  | BExtern => "ztype::ExternType"
  | BBytes => "ztype::BytesType"
  | _ => match bty_rty b with Some (RTInt sg w) => int_name sg w | _ => "bool" end
  end.
(** [generator/types.rs:30-43] ztype_to_rust_type; paths are reduced to the name. *)
Definition stype_name (defs : list sdef) (t : stype) : string :=
  match t with
  | SBuiltin b => bty_name b
  | SBits sg _ => int_name sg 64
  | SRef n _ => match nth_error defs n with Some d => sdef_name d | None => "" end
  end.

(** What can be done with a member in an expression. Optional members are
    [Option<T>] in Rust, and no expression takes the value out. *)
Inductive kind := MScalar (t : rty) | MObject (n : nat) | MArray (k : kind) | MOther.

(** [generator/types.rs:30-43]; enums and bitmasks are types of their own. *)
Definition stype_kind (defs : list sdef) (t : stype) : kind :=
  match t with
  | SBuiltin b => match bty_rty b with Some t => MScalar t | None => MOther end
  | SBits sg _ => MScalar (RTInt sg 64)
  | SRef n _ =>
      match nth_error defs n with
      | Some (SEnum nm _ _) => MScalar (RTEnum nm)
      | Some (SMask nm b _) =>
          match bty_rty b with Some (RTInt sg w) => MScalar (RTMask nm sg w) | _ => MOther end
      | Some _ => MObject n
      | None => MOther
      end
  end.
Definition member_kind (defs : list sdef) (f : sfield) : kind :=
  if sf_optional f then MOther
  else match sf_array f with
       | Some _ => MArray (stype_kind defs (sf_ty f))
       | None => stype_kind defs (sf_ty f)
       end.

Fixpoint find_name (m : string) (l : list sfield) (i : nat) : option (nat * sfield) :=
  match l with
  | [] => None
  | f :: t => if String.eqb m (sf_name f) then Some (i, f) else find_name m t (S i)
  end.
(** [generator/zstruct.rs:47-73], [zchoice.rs:57-83], [zunion.rs:87-116]: parameters and
    fields are the members of the Rust struct. [true]: a parameter. *)
Definition find_member (d : sdef) (m : string) : option (bool * nat * sfield) :=
  match find_name m (sdef_params d) 0 with
  | Some (i, f) => Some (true, i, f)
  | None => match find_name m (sdef_fields d) 0 with
            | Some (i, f) => Some (false, i, f)
            | None => None
            end
  end.
(** [.m] of a Rust struct. *)
Definition get_member (defs : list sdef) (o : kind * value) (m : string) : option (kind * value) :=
  match o with
  | (MObject n, VObj _ ps fs) =>
      match nth_error defs n with
      | Some d =>
          match find_member d m with
          | Some (p, i, f) =>
              match nth_error (if p then ps else fs) i with
              | Some v => Some (member_kind defs f, v)
              | None => None
              end
          | None => None
          end
      | None => None
      end
  | _ => None
  end.

(** The Rust value of a number or boolean, if it is one of the type. *)
Definition scalar (t : rty) (v : value) : option (rty * val) :=
  match v with
  | VInt z => match bits_of_ty t with
              | Some i => if fits i z && real_width (snd i) then Some (t, VI z) else None
              | None => match t with RTBool => None | _ => Some (t, VI z) end
              end
  | VBool b => match t with RTBool => Some (t, VB b) | _ => None end
  | _ => None
  end.

(** ** What the generated code reads *)

Section Read.
Variables (defs : list sdef) (consts : list (string * (rty * val))).
Variable calls : nat -> list value -> list value -> string -> option (rty * val).
(** The object [self] is of type number [n] and has these parameters and fields; the
    loop variable [param_index], where there is one. *)
Variables (n : nat) (ix : option Z) (ps fs : list value).

Fixpoint place (g : rexp) : option (kind * value) :=
  match g with
  | RAtom s => if String.eqb s "self" then Some (MObject n, VObj 0 ps fs) else None
  | RField a m => match place a with Some o => get_member defs o m | None => None end
  | _ => None
  end.
(** [v[param_index]]; an index of another type than [usize] is an error in Rust, and
    [param_index] is the only variable of this type. *)
Definition place_or_element (g : rexp) : option (kind * value) :=
  match g with
  | RElem a (RAtom s) =>
      if String.eqb s "param_index" then
        match place a, ix with
        | Some (MArray k, VArr l), Some i =>
            match nth_error l (Z.to_nat i) with Some v => Some (k, v) | None => None end
        | _, _ => None
        end
      else None
  | _ => place g
  end.

Definition usize (z : Z) : option (rty * val) :=
  if fits (false, 64) z then Some (RTSize, VI z) else None.

(** [generator/expression.rs:38-41, 314-319] prints calls of functions as [o.f()]. Functions
    called [len] and [bits] are left out. *)
Definition code_env : renv := fun g =>
  match g with
  | RAtom s =>
      if String.eqb s "param_index" then match ix with Some i => usize i | None => None end
      else assoc consts s
  | RCall (RField a f) [] =>
      if String.eqb f "len" then
        match place a with Some (MArray _, VArr l) => usize (zlen l) | _ => None end
      else if String.eqb f "bits" then
        match place a with
        | Some (MScalar (RTMask _ sg w), v) => scalar (RTInt sg w) v
        | _ => None
        end
      else
        match place a with
        | Some (MObject k, VObj _ qs gs) => calls k qs gs f
        | _ => None
        end
  | _ => match place_or_element g with Some (MScalar t, v) => scalar t v | _ => None end
  end.
End Read.

(** ** The printed texts *)

Section Text.
Variables (cb : build) (fuel : nat) (sc : scope).

(** [generator/array.rs:121-127], [generator/encode.rs:272-277]. *)
Definition len_text (e : expr) : res (list tok) :=
  do t <- gen cb fuel sc e ; Ok ([KLP] ++ t ++ [KRP; KAs "usize"]).
(** [generator/array.rs:63-68] in arrays, [generator/encode.rs:66-81] and
    [generator/decode.rs:74-89] otherwise. Packed elements outside arrays always get the
    cast; if the expression is of type [u8] without it, this changes nothing. *)
Definition width_cast (in_array : bool) (e : expr) : bool :=
  in_array || match M_Types.u8_cast cb fuel sc e with Ok c => c | _ => false end.
Definition width_text (in_array : bool) (e : expr) : res (list tok) :=
  do t <- gen cb fuel sc e ;
  Ok (if width_cast in_array e then [KLP] ++ t ++ [KRP; KAs "u8"] else t).

(** [generator/casts.rs:5-30] expression_requires_cast for a parameter of the Rust
    type [target]. *)
Definition arg_cast (target : string) (e : expr) : option string :=
  match eval cb fuel sc e with
  | Ok r =>
      match e_rt r with
      | TInt _ | TBitMask _ _ | TFloat _ =>
          match e_nt r with
          | Some nt => match rust_name nt with
                       | Ok t => if String.eqb t target then None else Some target
                       | _ => None
                       end
          | None => None
          end
      | _ => None
      end
  | _ => None
  end.
Definition as_text (c : option string) : list tok :=
  match c with Some t => [KAs t] | None => [] end.
(** [generator/encode.rs:242-253]. *)
Definition arg_write_text (target : string) (e : expr) : res (list tok) :=
  do t <- gen cb fuel sc e ; Ok (t ++ as_text (arg_cast target e)).
(** [generator/encode.rs:254-259]: the condition of the [assert!] that parameter [p] of
    [element] has the value of the argument. *)
Definition arg_check_text (p target : string) (e : expr) : res (list tok) :=
  do t <- arg_write_text target e ; Ok ([KAtom "element"; KDot; KAtom p; KOp REq] ++ t).
(** [generator/decode.rs:233-258, 341-363, 386-408]. *)
Definition arg_read_text (target : string) (e : expr) : res (list tok) :=
  do t <- gen cb fuel sc e ;
  do r <- eval cb fuel sc e ;
  Ok (t ++ (if e_full r then [] else [KDot; KAtom "clone"; KLP; KRP])
        ++ as_text (arg_cast target e)).
End Text.

(** [operand1], [operand2], [operand3] of [ast/expression.rs:50-70], last first: the
    order in which [Vec::pop] takes them. *)
Definition operands (e : expr) : list expr :=
  match e with
  | EParen a | ECall a | EDot a _ | ELengthof a | EValueof a | ENumbits a | EUn _ a => [a]
  | EElem a i | EIsset a i | EBin _ a i => [i; a]
  | ETern c a d => [d; a; c]
  | ELit _ | EIndex | EId _ => []
  end.
(** [generator/pass_parameters.rs:57-77] does_expression_contains_index_operator. *)
Fixpoint index_loop (fuel : nat) (stack : list expr) : option bool :=
  match fuel with
  | O => None
  | S k => match stack with
           | [] => Some false
           | EIndex :: _ => Some true
           | e :: t => index_loop k (operands e ++ t)
           end
  end.

(** ** Schemas *)

(** An interpretation of the expressions: what they are functions of M_Gen for. *)
Record interp := Interp {
  in_cond : nat -> aexpr -> M_Gen.expr bool;
  in_len : nat -> aexpr -> M_Gen.expr Z;
  in_width : nat -> bool -> aexpr -> M_Gen.expr Z;
  in_arg : nat -> bool -> option stype -> sarg -> M_Gen.expr value;
  in_sel : nat -> expr -> M_Gen.expr Z;
  in_label : nat -> expr -> list Z }.

Section Lower.
Variables (I : interp) (defs : list sdef).

(** The type of parameter number [j] of declaration number [k],
    [generator/pass_parameters.rs:10-21] get_type_parameter. *)
Definition param_type (k j : nat) : option stype :=
  match nth_error defs k with
  | Some d => option_map sf_ty (nth_error (sdef_params d) j)
  | None => None
  end.
Fixpoint lower_args (n : nat) (in_array : bool) (k j : nat) (args : list sarg)
  : list (M_Gen.expr value) :=
  match args with
  | [] => []
  | a :: t => in_arg I n in_array (param_type k j) a :: lower_args n in_array k (S j) t
  end.
Definition lower_type (n : nat) (in_array : bool) (t : stype) : M_Gen.ty :=
  match t with
  | SBuiltin b => TB b
  | SBits sg a => TB (BDyn sg (in_width I n in_array a))
  | SRef k args => M_Gen.TRef k (lower_args n in_array k 0 args)
  end.
Definition lower_field (n : nat) (f : sfield) : field :=
  mkField (lower_type n (match sf_array f with Some _ => true | None => false end) (sf_ty f))
    (option_map (in_cond I n) (sf_clause f))
    (sf_align f) (sf_offset f) (sf_optional f)
    (option_map (fun a => mkAS (sa_packed a) (option_map (in_len I n) (sa_len a))) (sf_array f))
    (sf_is_offset f).
Definition lower_def (n : nat) (d : sdef) : tdef :=
  match d with
  | SStruct _ ps fl => DStruct (map (lower_field n) ps) (map (lower_field n) fl)
  | SChoice _ ps sel cases dflt =>
      DChoice (map (lower_field n) ps) (in_sel I n sel)
        (map (fun c => (flat_map (in_label I n) (fst c), option_map (lower_field n) (snd c))) cases)
        (option_map (option_map (lower_field n)) dflt)
  | SUnion _ ps fl => DUnion (map (lower_field n) ps) (map (lower_field n) fl)
  | SEnum _ b items => DEnum b items
  | SMask _ b values => DBitmask b values
  end.
Fixpoint lower_defs (n : nat) (l : list sdef) : schema :=
  match l with
  | [] => []
  | d :: t => lower_def n d :: lower_defs (S n) t
  end.
Definition lower : schema := lower_defs 0 defs.
End Lower.

(** ** The generated code *)

Section Code.
Variables (cb : build) (fuel : nat) (b : build) (P : package).

Definition env_at (n : nat) (ix : option Z) (ps fs : list value) : renv :=
  code_env (pk_defs P) (pk_consts P) (pk_calls P) n ix ps fs.

Definition as_bool (r : res val) : res bool :=
  match r with Ok (VB v) => Ok v | Ok _ => Panic | Err e => Err e | Panic => Panic | NoFuel => NoFuel end.
Definition as_number (r : res val) : res Z :=
  match r with Ok (VI z) => Ok z | Ok _ => Panic | Err e => Err e | Panic => Panic | NoFuel => NoFuel end.
Definition as_value (r : res val) : res value :=
  match r with
  | Ok (VI z) => Ok (VInt z) | Ok (VB v) => Ok (VBool v)
  | Ok _ => Panic | Err e => Err e | Panic => Panic | NoFuel => NoFuel
  end.

(** The typed trees of the texts above, given that of the expression. *)
Definition len_code (x : texp) : texp := XCast (XParen x) "usize".
Definition width_code (n : nat) (in_array : bool) (a : aexpr) : texp :=
  if width_cast cb fuel (pk_scope P n) in_array (a_src a) then XCast (XParen (a_rust a)) "u8"
  else a_rust a.
Definition target_name (t : option stype) : string :=
  match t with Some t => stype_name (pk_defs P) t | None => "" end.
Definition arg_code (n : nat) (t : option stype) (a : aexpr) : texp :=
  match arg_cast cb fuel (pk_scope P n) (target_name t) (a_src a) with
  | Some t => XCast (a_rust a) t
  | None => a_rust a
  end.

(** [param_index] exists in the loops over the elements of an array only
    ([generator/encode.rs:203-223], [generator/decode.rs:310-313]). *)
Definition index_at (in_array : bool) (idx : Z) : option Z := if in_array then Some idx else None.

(** [generator/zchoice.rs:142-146]: [match self.<text>], where [text] is the name if the
    selector is one, and the token of the operator otherwise ([visitor.rs:789-1001]),
    which is not the name of a member. *)
Definition sel_tree (e : expr) : option rexp :=
  match e with
  | EId m => Some (RField (RAtom "self") m)
  | _ => None
  end.
(** The number a scalar is compared by. *)
Definition number_of (v : val) : option Z :=
  match v with VI z => Some z | VB v => Some (if v then 1 else 0) | _ => None end.
(** [generator/zchoice.rs:148-160]: the printed case expressions are patterns: literals,
    and paths of constants and enum items. *)
Definition pattern (g : rexp) : option Z :=
  match g with
  | RLit (LInt z) => Some z
  | RLit (LBool v) => Some (if v then 1 else 0)
  | RUn RMinus (RLit (LInt z)) => Some (- z)
  | RAtom s => match assoc (pk_consts P) s with Some (_, v) => number_of v | None => None end
  | _ => None
  end.

Definition code_interp : interp :=
  Interp
    (fun n a _ ps fs => as_bool (run b (env_at n None ps fs) (a_rust a)))
    (fun n a _ ps fs => as_number (run b (env_at n None ps fs) (len_code (a_rust a))))
    (fun n arr a _ ps fs => as_number (run b (env_at n None ps fs) (width_code n arr a)))
    (fun n arr t a idx ps fs =>
       match a with
       | AVal a => as_value (run b (env_at n (index_at arr idx) ps fs) (arg_code n t a))
       | AObj e =>
           match place_or_element (pk_defs P) n (index_at arr idx) ps fs
                   (tree cb fuel (pk_scope P n) e) with
           | Some (_, v) => Ok v
           | None => Panic
           end
       end)
    (fun n e _ ps fs =>
       match sel_tree e with
       | Some g => match env_at n None ps fs g with
                   | Some (_, v) => match number_of v with Some z => Ok z | None => Panic end
                   | None => Panic
                   end
       | None => Panic
       end)
    (fun n e => match pattern (tree cb fuel (pk_scope P n) e) with Some z => [z] | None => [] end).

(** The generated code of the package, compiled by build profile [b]. *)
Definition generated : schema := lower code_interp (pk_defs P).
End Code.
