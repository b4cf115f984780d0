(** Specification vocabulary for names and types across the files of a schema. *)
From Coq Require Import ZArith List Bool String Ascii.
From Verif Require Import M_Base M_Expr M_Scope M_Templ M_Pkg M_Link S_Expr S_Pkg.
Import ListNotations.

(** ** Files *)

(** A schema file: its name ends in ".zs" or ".zserio", in capitals or not. *)
Definition letter (c : ascii) (d : ascii) : Prop :=
  d = c \/ (exists n, (n < 26)%nat /\ c = ascii_of_nat (97 + n) /\ d = ascii_of_nat (65 + n)).
Fixpoint spells (w s : string) : Prop :=
  match w, s with
  | EmptyString, EmptyString => True
  | String c w', String d s' => letter c d /\ spells w' s'
  | _, _ => False
  end.
Definition schema_name (f : string) : Prop :=
  exists pre ext, f = (pre ++ ext)%string /\ (spells ".zs" ext \/ spells ".zserio" ext).

(** ** Packages *)

(** A schema: for every package its declarations and its imports. *)
Definition sources : Type := list (string * (list (sdecl body) * list import)).
(** The schema as it is loaded. *)
Definition parsed (src : sources) : packages :=
  map (fun s => (fst s, (visit_package (fst (snd s)), snd (snd s)))) src.

(** Package [p] contains the declaration [n] of kind [k]. *)
Definition declares (src : sources) (p : string) (k : dkind) (n : string) (x : body) : Prop :=
  exists ds imps, In (p, (ds, imps)) src /\ In (k, n, x) ds /\ introduces k = true.
Definition imports (src : sources) (p q : string) : Prop :=
  exists ds imps sel, In (p, (ds, imps)) src /\ In (q, sel) imps.
(** The packages whose declarations [p] can use: itself and what it imports, directly or
    indirectly. *)
Inductive sees (src : sources) : string -> string -> Prop :=
| SeesSelf p : sees src p p
| SeesImport p q r : sees src p q -> imports src q r -> sees src p r.

(** The members of a declaration. *)
Inductive member : body -> string -> sym -> Prop :=
| MemParam tm ps fs gs n t : In (n, t) ps -> member (BCompound tm ps fs gs) n (SyParam t)
| MemField tm ps fs gs n t : In (n, t) fs -> member (BCompound tm ps fs gs) n (SyField t)
| MemFun tm ps fs gs n t : In (n, t) gs -> member (BCompound tm ps fs gs) n (SyFun t)
| MemItem items t n : In n items -> member (BEnum items t) n (SyEnumItem t).
Definition member_names (x : body) : list string :=
  match x with
  | BCompound _ ps fs gs => map fst ps ++ map fst fs ++ map fst gs
  | BEnum items _ => items
  | _ => []
  end.

(** The contents a declaration of each kind has. *)
Definition fits (k : dkind) (x : body) : Prop :=
  match k, x with
  | (KdStruct | KdChoice | KdUnion), BCompound _ _ _ _ => True
  | KdEnum, BEnum _ _ | KdConst, BConst _ | KdSubtype, BSubtype _ | KdBitmask, BMask _ _ => True
  | _, _ => False
  end.

(** No name is declared twice, and imported packages exist. *)
Record well_formed (src : sources) : Prop :=
  { wf_packages : NoDup (map fst src);
    wf_symbols : forall p ds imps, In (p, (ds, imps)) src -> NoDup (symbol_names ds);
    wf_members : forall p k n x, declares src p k n x -> NoDup (member_names x);
    wf_fits : forall p k n x, declares src p k n x -> fits k x /\ n <> ""%string;
    wf_imports : forall p q, imports src p q -> In q (map fst src) }.

(** Among the packages [p] sees, at most one declares a name. *)
Definition unambiguous (src : sources) (p : string) : Prop :=
  forall q q' k k' n x x', sees src p q -> sees src p q' ->
    declares src q k n x -> declares src q' k' n x' -> q = q'.

(** The imports of the packages [p] sees have no cycle: some measure decreases along them. *)
Definition acyclic (src : sources) (p : string) : Prop :=
  exists rank : string -> nat,
    forall q r, sees src p q -> imports src q r -> (rank r < rank q)%nat.

(** ** Types *)

(** What a type is, when all subtypes are replaced by what they stand for. *)
Inductive place :=
| Builtin (n : string)
| Declared (q n : string) (k : dkind) (x : body).
(** The reference [t], written in package [p], means that type. *)
Inductive means (src : sources) : string -> tref -> place -> Prop :=
| MeansBuiltin p t : tr_builtin t = true -> means src p t (Builtin (tr_name t))
| MeansDecl p t k x : tr_builtin t = false -> sees src p (tr_pkg t) ->
    declares src (tr_pkg t) k (tr_name t) x ->
    In k [KdStruct; KdChoice; KdUnion; KdEnum; KdBitmask] ->
    means src p t (Declared (tr_pkg t) (tr_name t) k x)
| MeansSubtype p t u pl : tr_builtin t = false -> sees src p (tr_pkg t) ->
    declares src (tr_pkg t) KdSubtype (tr_name t) (BSubtype u) ->
    means src (tr_pkg t) u pl -> means src p t pl.

(** The result of evaluating something of that type. *)
Definition shows (pl : place) (rt : etype) (nt : option tref) : Prop :=
  match pl with
  | Builtin n => exists c, In (n, c) builtin_types /\ holds rt = Some c /\ nt = Some (native n)
  | Declared _ _ _ (BEnum l t) => rt = TEnum l t /\ nt = None
  | Declared _ _ _ (BMask l t) => rt = TBitMask l t /\ nt = None
  | Declared _ _ _ (BCompound _ _ _ _) => rt = TCompound /\ nt = None
  | Declared _ _ _ _ => False
  end.
Definition usable (pl : place) : Prop :=
  match pl with Builtin n => exists c, In (n, c) builtin_types | _ => True end.

(** ** Access paths *)

(** A declaration as a symbol of an expression. *)
Definition as_symbol (x : body) : sym :=
  match x with
  | BConst t => SyConst t
  | BMask l t => SyBitmask l t
  | BCompound _ _ _ _ => SyCompound
  | BEnum l t => SyEnum l t
  | BSubtype t => SySubtype t
  end.
(** The type a symbol was declared with. *)
Definition declared_type (s : sym) : option tref :=
  match s with
  | SyConst t | SyField t | SyParam t | SyEnumItem t | SySubtype t => Some t
  | _ => None
  end.

(** In the declaration [here] of package [p] the name or access path [e] is the symbol
    [s], which is declared in package [q]: [m] is a member of the declaration, or else
    a declaration of some package in sight; [e.m] is the member [m] of the type of
    the field or parameter [e]. *)
Inductive path (src : sources) (p : string) (here : string) : expr -> sym -> string -> Prop :=
| PathMember k x m s : declares src p k here x -> member x m s -> path src p here (EId m) s p
| PathDecl q k x m : (forall k' x' s', declares src p k' here x' -> ~ member x' m s') ->
    sees src p q -> declares src q k m x -> path src p here (EId m) (as_symbol x) q
| PathDot e o t q n k x m s : path src p here e (if o : bool then SyField t else SyParam t) q ->
    forall q', means src q t (Declared q' n k x) -> k = KdStruct \/ k = KdChoice -> member x m s ->
    path src p here (EDot e m) s q'.

(** The symbol [s], declared in [q], has a type, and [r] is an evaluation to it. *)
Definition typed (src : sources) (q : string) (s : sym) (r : ev) : Prop :=
  match declared_type s with
  | Some t => exists pl, means src q t pl /\ shows pl (e_rt r) (e_nt r)
  | None =>
      e_nt r = None
      /\ e_rt r = match s with
                  | SyBitmask l t => TBitMask l t
                  | SyEnum l t => TEnum l t
                  | SyFun t => TFunction t
                  | _ => TCompound
                  end
  end.
Definition has_type (src : sources) (q : string) (s : sym) : Prop :=
  forall t, declared_type s = Some t -> exists pl, means src q t pl /\ usable pl.

(** Something holds of all sufficiently large bounds on the steps. *)
Definition eventually (P : nat -> Prop) : Prop := exists n, forall fuel, (n <= fuel)%nat -> P fuel.

(** ** Resolution *)

(** The reference with the package that declares it filled in, if it names none. *)
Definition placed (src : sources) (p : string) (t t' : tref) : Prop :=
  if tr_builtin t || negb (String.eqb (tr_pkg t) "") then t' = t
  else exists q k x, sees src p q /\ declares src q k (tr_name t) x
       /\ t' = TRef false q (tr_name t) (tr_bits t) (tr_dyn t).
Definition placed_named (src : sources) (p : string) (m m' : string * tref) : Prop :=
  fst m' = fst m /\ placed src p (snd m) (snd m').
(** The same declaration with all its references so; nothing is done in templates, enums
    and bitmasks. *)
Inductive placed_body (src : sources) (p : string) : body -> body -> Prop :=
| PlConst t t' : placed src p t t' -> placed_body src p (BConst t) (BConst t')
| PlSubtype t t' : placed src p t t' -> placed_body src p (BSubtype t) (BSubtype t')
| PlMask l t : placed_body src p (BMask l t) (BMask l t)
| PlEnum l t : placed_body src p (BEnum l t) (BEnum l t)
| PlTemplate ps fs gs : placed_body src p (BCompound true ps fs gs) (BCompound true ps fs gs)
| PlCompound ps fs gs ps' fs' gs' : Forall2 (placed_named src p) ps ps' ->
    Forall2 (placed_named src p) fs fs' -> Forall2 (placed_named src p) gs gs' ->
    placed_body src p (BCompound false ps fs gs) (BCompound false ps' fs' gs').
Definition placed_decl (src : sources) (p : string) (d d' : sdecl body) : Prop :=
  fst d' = fst d
  /\ if introduces (fst (fst d)) then placed_body src p (snd d) (snd d') else snd d' = snd d.
Definition placed_sources (src src' : sources) : Prop :=
  Forall2 (fun s s' => fst s' = fst s /\ snd (snd s') = snd (snd s)
                       /\ Forall2 (placed_decl src (fst s)) (fst (snd s)) (fst (snd s'))) src src'.
(** The references of a declaration that are looked at. *)
Definition references (x : body) : list tref :=
  match x with
  | BConst t | BSubtype t => [t]
  | BCompound false ps fs gs => map snd ps ++ map snd fs ++ map snd gs
  | _ => []
  end.
(** Every name of a type that is not builtin is declared in sight. *)
Definition resolvable (src : sources) : Prop :=
  forall p k n x t, declares src p k n x -> In t (references x) -> tr_builtin t = false ->
    exists q k' y, sees src p q /\ declares src q k' (tr_name t) y.
(** No reference names its package. *)
Definition unqualified (src : sources) : Prop :=
  forall p k n x t, declares src p k n x -> In t (references x) -> tr_pkg t = ""%string.
