(** Specification: what the expressions of a package mean, in terms of the names and
    values of the schema, and which packages the theorems are about. *)
From Coq Require Import ZArith List Bool String.
From Verif Require Import M_Base M_Var M_Gen S_Var M_Expr M_Print S_Expr S_Print S_Rust M_Comp.
Import ListNotations.
Open Scope Z_scope.

(** ** Types of members *)

(** The types of numbers and booleans: variable-length integers have the smallest type
    that holds them all, bit fields are of 64 bits. *)
Definition number_type (b : bty) : option rty :=
  match b with
  | BFix sg w => Some (RTInt sg w)
  | BBits sg _ | BDyn sg _ => Some (RTInt sg 64)
  | BVarU VU16 => Some (RTInt false 16)
  | BVarU (VU32 | VSIZE) => Some (RTInt false 32)
  | BVarU (VU64 | VU) => Some (RTInt false 64)
  | BVarS VS16 => Some (RTInt true 16)
  | BVarS VS32 => Some (RTInt true 32)
  | BVarS (VS64 | S_Var.VS) => Some (RTInt true 64)
  | BBool => Some RTBool
  | BFloat16 | BFloat32 | BFloat64 | BString | BExtern | BBytes => None
  end.
(** Numbers, booleans, enums, bitmasks; other declarations are objects. *)
Definition type_of (defs : list sdef) (t : stype) : kind :=
  let scalar o := match o with Some u => MScalar u | None => MOther end in
  match t with
  | SBuiltin b => scalar (number_type b)
  | SBits sg _ => MScalar (RTInt sg 64)
  | SRef k _ =>
      match nth_error defs k with
      | Some (SEnum nm _ _) => MScalar (RTEnum nm)
      | Some (SMask nm b _) =>
          match number_type b with Some (RTInt sg w) => MScalar (RTMask nm sg w) | _ => MOther end
      | Some (SStruct _ _ _ | SChoice _ _ _ _ _ | SUnion _ _ _) => MObject k
      | None => MOther
      end
  end.
(** Optional members have no value in expressions. *)
Definition member_type (defs : list sdef) (f : sfield) : kind :=
  if sf_optional f then MOther
  else match sf_array f with
       | Some _ => MArray (type_of defs (sf_ty f))
       | None => type_of defs (sf_ty f)
       end.
(** The type of parameter number [j] of declaration number [k]. *)
Definition parameter_type (defs : list sdef) (k j : nat) : option stype :=
  match nth_error defs k with
  | Some (SStruct _ ps _ | SChoice _ ps _ _ _ | SUnion _ ps _) => option_map sf_ty (nth_error ps j)
  | _ => None
  end.
(** [@index] is the number of the element of an array. *)
Definition element_index (in_array : bool) (i : Z) : option Z := if in_array then Some i else None.

(** ** Schemas *)

Section Schema.
Variables (I : interp) (defs : list sdef).
(** The list with the number of each element. *)
Definition numbered {A} (l : list A) : list (nat * A) := combine (seq 0 (List.length l)) l.
Definition type_meant (n : nat) (arr : bool) (t : stype) : M_Gen.ty :=
  match t with
  | SBuiltin b => TB b
  | SBits sg a => TB (BDyn sg (in_width I n arr a))
  | SRef k args => M_Gen.TRef k (map (fun '(j, a) => in_arg I n arr (parameter_type defs k j) a) (numbered args))
  end.
Definition field_meant (n : nat) (f : sfield) : field :=
  {| f_ty := type_meant n (if sf_array f then true else false) (sf_ty f);
     f_clause := option_map (in_cond I n) (sf_clause f);
     f_align := sf_align f;
     f_offset := sf_offset f;
     f_optional := sf_optional f;
     f_array := option_map (fun a => {| as_packed := sa_packed a; as_len := option_map (in_len I n) (sa_len a) |})
                  (sf_array f);
     f_is_offset := sf_is_offset f |}.
Definition decl_meant (n : nat) (d : sdef) : tdef :=
  let field := field_meant n in
  match d with
  | SStruct _ ps fl => DStruct (map field ps) (map field fl)
  | SUnion _ ps fl => DUnion (map field ps) (map field fl)
  | SChoice _ ps sel cases dflt =>
      DChoice (map field ps) (in_sel I n sel)
        (map (fun '(labels, f) => (List.concat (map (in_label I n) labels), option_map field f)) cases)
        (match dflt with None => None | Some f => Some (option_map field f) end)
  | SEnum _ b items => DEnum b items
  | SMask _ b values => DBitmask b values
  end.
(** The schema with its expressions as [I] says. *)
Definition schema_of : schema := map (fun '(n, d) => decl_meant n d) (numbered defs).
End Schema.

(** ** Values of names *)

Section Values.
Variables (defs : list sdef) (consts : list (string * (rty * val))).
Variable calls : nat -> list value -> list value -> string -> option (rty * val).
(** The object the expression belongs to: its type, its parameters and fields; the
    index of the array element, where there is one. *)
Variables (n : nat) (ix : option Z) (ps fs : list value).

Definition named (m : string) (f : sfield) : bool := String.eqb m (sf_name f).
Definition by_name (m : string) (p : sfield * value) : bool := named m (fst p).
(** The parameter or field called [m] of an object of type number [k]. *)
Definition attribute (k : nat) (m : string) (ps fs : list value) : option (kind * value) :=
  match nth_error defs k with
  | Some d =>
      match find (by_name m) (if existsb (named m) (sdef_params d) then combine (sdef_params d) ps
                              else combine (sdef_fields d) fs) with
      | Some (f, v) => Some (member_type defs f, v)
      | None => None
      end
  | None => None
  end.

(** A name stands for a member of the object, [a.m] for the member [m] of [a]. *)
Fixpoint path (e : expr) : option (kind * value) :=
  match e with
  | EId m => attribute n m ps fs
  | EDot a m => match path a with
                | Some (MObject k, VObj _ qs gs) => attribute k m qs gs
                | _ => None
                end
  | _ => None
  end.
(** The same, or [a[@index]]. *)
Definition source (e : expr) : option (kind * value) :=
  match e with
  | EElem a EIndex =>
      match path a, ix with
      | Some (MArray k, VArr l), Some i => option_map (fun v => (k, v)) (nth_error l (Z.to_nat i))
      | _, _ => None
      end
  | _ => path e
  end.

Definition as_val (o : option (kind * value)) : option val :=
  match o with
  | Some (MScalar _, VInt z) => Some (VI z)
  | Some (MScalar _, VBool v) => Some (VB v)
  | _ => None
  end.
Definition constant (m : string) : option val := option_map snd (assoc consts m).

(** The values of names and members, of [@index], and the lengths of arrays. What is
    not a member is a constant or an item of an enum or bitmask. [f()] calls a function
    of the object, [a.f()] one of the object [a]. *)
Definition values : valuation := fun e =>
  match e with
  | EId m => match path e with Some o => as_val (Some o) | None => constant m end
  | EDot a m => match path a with
                | Some (MObject _, _) => as_val (path e)
                | _ => constant m
                end
  | EElem _ _ => as_val (source e)
  | EIndex => option_map VI ix
  | ELengthof a => match path a with Some (MArray _, VArr l) => Some (VI (zlen l)) | _ => None end
  | ECall (EId f) => option_map snd (calls n ps fs f)
  | ECall (EDot a f) => match path a with
                        | Some (MObject k, VObj _ qs gs) => option_map snd (calls k qs gs f)
                        | _ => None
                        end
  | _ => None
  end.
End Values.

(** [@index] occurs in the expression. *)
Fixpoint mentions_index (e : expr) : bool :=
  match e with
  | EIndex => true
  | ELit _ | EId _ => false
  | EParen a | ECall a | EDot a _ | ELengthof a | EValueof a | ENumbits a | EUn _ a => mentions_index a
  | EElem a i | EIsset a i | EBin _ a i => mentions_index a || mentions_index i
  | ETern c a d => mentions_index c || mentions_index a || mentions_index d
  end.

(** ** Meaning of a package *)

Section Spec.
Variables (cb : build) (fuel : nat) (P : package).
Notation defs := (pk_defs P).

Definition values_at (n : nat) (ix : option Z) (ps fs : list value) : valuation :=
  values defs (pk_consts P) (pk_calls P) n ix ps fs.

(** The value of the schema expression [e] in unbounded integers, if Rust gives the
    type [t] to its text [x] and all the values that arise fit their types. *)
Definition meaning (n : nat) (ix : option Z) (ps fs : list value) (t : rty) (x : texp) (e : expr)
  : option val :=
  match ty (env_at P n ix ps fs) x, ideal (env_at P n ix ps fs) x with
  | Some u, Some _ => if rty_eqb u t then sem (values_at n ix ps fs) e else None
  | _, _ => None
  end.

Definition defined {A} (o : option A) : res A := match o with Some a => Ok a | None => NoFuel end.
(** Numbers count as true if they are not zero. *)
Definition truth (v : val) : option bool :=
  match v with VB v => Some v | VI z => Some (negb (z =? 0)) | _ => None end.
Definition number (v : val) : option Z := match v with VI z => Some z | _ => None end.
Definition argument (v : val) : option value :=
  match v with VI z => Some (VInt z) | VB v => Some (VBool v) | _ => None end.
Definition and_then {A B} (o : option A) (f : A -> option B) : option B :=
  match o with Some a => f a | None => None end.

Definition type_kind (t : option stype) : kind :=
  match t with Some t => type_of defs t | None => MOther end.

Definition spec_interp : interp :=
  Interp
    (fun n a _ ps fs => defined (and_then (meaning n None ps fs RTBool (a_rust a) (a_src a)) truth))
    (fun n a _ ps fs =>
       defined (and_then (meaning n None ps fs RTSize (len_code (a_rust a)) (a_src a)) number))
    (fun n arr a _ ps fs =>
       defined (and_then (meaning n None ps fs (RTInt false 8) (width_code cb fuel P n arr a) (a_src a))
                  number))
    (fun n arr t a idx ps fs =>
       match a, type_kind t with
       | AVal a, MScalar u =>
           defined (and_then (meaning n (element_index arr idx) ps fs u (arg_code cb fuel P n t a) (a_src a))
                      argument)
       | AObj e, MObject k =>
           match source defs n (element_index arr idx) ps fs e with
           | Some (MObject k', v) => if Nat.eqb k k' then Ok v else NoFuel
           | _ => NoFuel
           end
       | _, _ => NoFuel
       end)
    (fun n e _ ps fs =>
       match path defs n ps fs e with
       | Some (MScalar t, v) => defined (and_then (option_map snd (scalar t v)) number_of)
       | _ => NoFuel
       end)
    (fun n e => match and_then (sem (fun e => match e with
                                              | EId m | EDot _ m => constant (pk_consts P) m
                                              | _ => None
                                              end) e) number_of with
                | Some z => [z]
                | None => []
                end).

(** The package with its expressions evaluated as the schema says. *)
Definition intended : schema := schema_of spec_interp defs.

(** ** Checked packages: what the compilers check, and the restrictions *)

(** Rust reads a text as the tree [g]. *)
Definition reads (t : res (list tok)) (g : rexp) : Prop := exists ts, t = Ok ts /\ rust_reads ts g.

Definition is_field (g : rexp) : bool := match g with RField _ _ => true | _ => false end.
Definition is_member (n : nat) (m : string) : bool :=
  match nth_error defs n with
  | Some d => existsb (named m) (sdef_params d ++ sdef_fields d)
  | None => false
  end.
Fixpoint path_kind (n : nat) (e : expr) : option kind :=
  let member k m :=
    match nth_error defs k with
    | Some d => option_map (member_type defs)
                  (find (named m) (sdef_params d ++ sdef_fields d))
    | None => None
    end in
  match e with
  | EId m => member n m
  | EDot a m => match path_kind n a with Some (MObject k) => member k m | _ => None end
  | _ => None
  end.
Definition free_name (m : string) : bool :=
  negb (String.eqb m "self") && negb (String.eqb m "param_index").

(** The compiler takes the names of members for members, and the names of called
    functions for functions; no name is [self] or [param_index]. *)
Fixpoint resolved (n : nat) (e : expr) : bool :=
  let t := tree cb fuel (pk_scope P n) e in
  match e with
  | ELit _ | EIndex => true
  | EParen a | ELengthof a | EValueof a | ENumbits a | EUn _ a => resolved n a
  | EElem a i | EIsset a i | EBin _ a i => resolved n a && resolved n i
  | ETern c a d => resolved n c && resolved n a && resolved n d
  | ECall a => resolved n a && is_field (tree cb fuel (pk_scope P n) a)
               && match a with
                  | EId _ => true
                  | EDot o _ => match path_kind n o with Some (MObject _) => true | _ => false end
                  | _ => false
                  end
  | EId m => free_name m && (negb (is_member n m) || is_field t)
  | EDot a m => free_name m && resolved n a
                && match path_kind n a with Some (MObject _) => is_field t | _ => true end
  end.

(** Only parameters and the first [i] fields of [self] are read. *)
Fixpoint before (d : sdef) (i : nat) (g : rexp) : bool :=
  match g with
  | RAtom s => negb (String.eqb s "self")
  | RLit _ => true
  | RField (RAtom s) m =>
      if String.eqb s "self" then
        match find_member d m with Some (false, j, _) => Nat.ltb j i | _ => true end
      else true
  | RField a _ | RParen a | RUn _ a | RCast a _ => before d i a
  | RCall f args => before d i f && forallb (before d i) args
  | RElem a c | RBin _ a c => before d i a && before d i c
  | RIf c a e => before d i c && before d i a && before d i e
  end.

(** The functions of [self] that are called. *)
Fixpoint self_methods (g : rexp) : list string :=
  match g with
  | RAtom _ | RLit _ => []
  | RField a _ | RParen a | RUn _ a | RCast a _ => self_methods a
  | RCall (RField (RAtom s) f) [] => if String.eqb s "self" then [f] else []
  | RCall f args => self_methods f ++ flat_map self_methods args
  | RElem a c | RBin _ a c => self_methods a ++ self_methods c
  | RIf c a e => self_methods c ++ self_methods a ++ self_methods e
  end.
(** Function [f] of declaration number [n] reads parameters and the first [i] fields only. *)
Definition call_before (n i : nat) (f : string) : Prop :=
  forall ps fs fs', (forall j, (j < i)%nat -> nth_error fs j = nth_error fs' j) ->
    pk_calls P n ps fs f = pk_calls P n ps fs' f.

(** [clones g g']: [g'] is [g], or [g] with [.clone()] behind its last operand, which
    does not change a value. *)
Inductive clones : rexp -> rexp -> Prop :=
| cl_none g : clones g g
| cl_here g : clones g (RCall (RField g "clone") [])
| cl_cast g g' t : clones g g' -> clones (RCast g t) (RCast g' t)
| cl_un o g g' : clones g g' -> clones (RUn o g) (RUn o g')
| cl_bin o a g g' : clones g g' -> clones (RBin o a g) (RBin o a g').

Definition is_binary (e : expr) : bool := match e with EBin _ _ _ => true | _ => false end.

(** An expression of field number [i] of declaration number [n]: it can be
    evaluated by the compiler, is in the language of C53, and reads what is there. *)
Definition expr_ok (n i : nat) (e : expr) : Prop :=
  (exists r, eval cb fuel (pk_scope P n) e = Ok r)
  /\ (exists ts, gen cb fuel (pk_scope P n) e = Ok ts)
  /\ grouped e /\ plain e /\ resolved n e = true
  /\ exists d, nth_error defs n = Some d /\ before d i (tree cb fuel (pk_scope P n) e) = true
       /\ forall f, In f (self_methods (tree cb fuel (pk_scope P n) e)) -> call_before n i f.

Definition cond_ok (n i : nat) (a : aexpr) : Prop :=
  expr_ok n i (a_src a) /\ is_ternary (a_src a) = false
  /\ reads (gen_bool cb fuel (pk_scope P n) (a_src a)) (erase (a_rust a)).
Definition len_ok (n i : nat) (a : aexpr) : Prop :=
  expr_ok n i (a_src a)
  /\ reads (len_text cb fuel (pk_scope P n) (a_src a)) (erase (len_code (a_rust a))).
Definition width_ok (n i : nat) (arr : bool) (a : aexpr) : Prop :=
  expr_ok n i (a_src a)
  /\ reads (width_text cb fuel (pk_scope P n) arr (a_src a)) (erase (width_code cb fuel P n arr a)).
(** The texts of the writer, which compares, and of the reader, which clones, are read
    alike; a cast applies to the whole argument. *)
Definition arg_reads (n : nat) (t : option stype) (e : expr) (g : rexp) : Prop :=
  (forall p, reads (arg_check_text cb fuel (pk_scope P n) p (target_name P t) e)
               (RBin REq (RField (RAtom "element") p) g))
  /\ exists g', reads (arg_read_text cb fuel (pk_scope P n) (target_name P t) e) g' /\ clones g g'.
Definition arg_ok (n i : nat) (t : option stype) (a : sarg) : Prop :=
  match a with
  | AVal a => expr_ok n i (a_src a)
              /\ reads (gen cb fuel (pk_scope P n) (a_src a)) (erase (a_rust a))
              /\ arg_reads n t (a_src a) (erase (arg_code cb fuel P n t a))
  | AObj e => expr_ok n i e /\ arg_reads n t e (tree cb fuel (pk_scope P n) e)
  end.
Fixpoint args_ok (n i k j : nat) (args : list sarg) : Prop :=
  match args with
  | [] => True
  | a :: t => arg_ok n i (parameter_type defs k j) a /\ args_ok n i k (S j) t
  end.

Definition opt_ok {A} (Q : A -> Prop) (o : option A) : Prop :=
  match o with Some a => Q a | None => True end.
Definition is_array (f : sfield) : bool := match sf_array f with Some _ => true | None => false end.
Definition no_length (b : bty) : Prop := match b with BDyn _ _ => False | _ => True end.

Section Rank.
Variable rank : nat -> nat.

(** References are to declarations of the package; without an array in between, to
    one of smaller rank, because a Rust struct does not contain itself. *)
Definition ref_of (n : nat) (f : sfield) : Prop :=
  match sf_ty f with
  | SRef k _ => (k < List.length defs)%nat /\ sf_is_offset f = false
                /\ (sf_array f = None -> (rank k < rank n)%nat)
  | _ => True
  end.
Definition field_ok (n i : nat) (f : sfield) : Prop :=
  opt_ok (cond_ok n i) (sf_clause f)
  /\ opt_ok (fun a => opt_ok (len_ok n i) (sa_len a)) (sf_array f)
  /\ match sf_ty f with
     | SBuiltin b => no_length b
     | SBits _ a => width_ok n i (is_array f) a
     | SRef k args => args_ok n i k 0 args
     end
  /\ 0 <= sf_align f /\ ref_of n f.
Definition param_ok (n : nat) (f : sfield) : Prop :=
  sf_clause f = None /\ sf_array f = None /\ ref_of n f
  /\ match sf_ty f with SBuiltin b => no_length b | SBits _ _ => False | SRef _ args => args = [] end.

(** Case labels are literals, negative numbers, constants and items. *)
Definition label_ok (n : nat) (e : expr) : Prop :=
  match e with
  | ELit _ | EUn UMinus (ELit _) | EId _ | EDot _ _ => True
  | _ => False
  end
  /\ reads (gen cb fuel (pk_scope P n) e) (tree cb fuel (pk_scope P n) e)
  /\ pattern P (tree cb fuel (pk_scope P n) e) <> None.
(** The selector is a parameter that is a number or boolean. *)
Definition sel_ok (n : nat) (e : expr) : Prop :=
  exists d g t, nth_error defs n = Some d /\ sel_tree e = Some g /\ before d 0 g = true
    /\ path_kind n e = Some (MScalar t).

Definition def_ok (n : nat) (d : sdef) : Prop :=
  Forall (param_ok n) (sdef_params d)
  /\ (forall i f, nth_error (sdef_fields d) i = Some f -> field_ok n i f)
  /\ match d with
     | SChoice _ _ sel cases _ =>
         sel_ok n sel /\ Forall (fun c : list expr * option sfield => Forall (label_ok n) (fst c)) cases
     | SEnum _ b l | SMask _ b l => (match b with BFix _ _ | BBits _ _ | BVarU _ | BVarS _ => True | _ => False end) /\ l <> []
     | _ => True
     end.
End Rank.

(** Constants and the results of functions are values of their types. *)
Definition known_typed : Prop :=
  (forall m t v, assoc (pk_consts P) m = Some (t, v) -> real_ty t /\ val_in t v)
  /\ (forall n ps fs f t v, pk_calls P n ps fs f = Some (t, v) -> real_ty t /\ val_in t v).
Definition checked : Prop :=
  known_typed
  /\ exists rank, forall n d, nth_error defs n = Some d -> def_ok rank n d.
End Spec.
