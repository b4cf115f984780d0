(** Specification: what the parse trees of schema files declare, and which package of
    M_Comp they describe. Nothing here refers to the visitor or the generated code. *)
From Coq Require Import ZArith List Bool String.
From Verif Require Import M_Base M_Gen M_Expr M_Scope M_Templ M_Pkg M_Lit M_Link M_Print M_Comp.
From Verif Require Import S_Expr S_Lit S_Print S_Rust S_Rust2 S_Pkg S_Link S_Comp S_Whole M_Visit S_Visit.
Import ListNotations.
Open Scope Z_scope.
Open Scope string_scope.
Open Scope list_scope.

(** ** Names and types *)

(** [a.b.C] is [C] of the package [a.b]. *)
Definition tree_ref (t : ptype) (dynamic : bool) : tref :=
  match t with
  | PBuiltin s w => M_Expr.TRef true "" s (match w with Some n => numeral 10 n | None => 0 end) dynamic
  | PName ids _ => M_Expr.TRef false (String.concat "." (removelast ids)) (last ids "") 0 dynamic
  end.
Definition tree_inst (t : pinst) : tref :=
  tree_ref (pi_type t) (match pi_suffix t with PLength _ => true | _ => false end).
Definition tree_member (m : pmember) : string * tref := (pm_name m, tree_inst (pm_inst m)).
Definition tree_param (p : pparam) : string * tref := (pp_name p, tree_ref (pp_type p) false).
Definition tree_fun (g : pfun) : string * tref := (pfn_name g, tree_ref (pfn_type g) false).
Definition tree_fields (cases : list (list pexpr * option pcfield)) (dflt : option (option pcfield)) : list pcfield :=
  flat_map (fun c => list_of (snd c)) cases ++ match dflt with Some (Some f) => [f] | _ => [] end.
Definition tree_body (d : pdecl) : body :=
  let tmpl (l : list string) := match l with [] => false | _ => true end in
  match d with
  | PStruct _ tps ps fl gs =>
      BCompound (tmpl tps) (map tree_param ps) (map (fun f => tree_member (pf_member f)) fl) (map tree_fun gs)
  | PUnion _ tps ps fl gs =>
      BCompound (tmpl tps) (map tree_param ps) (map (fun f => tree_member (pc_member f)) fl) (map tree_fun gs)
  | PChoice _ tps ps _ cases dflt gs =>
      BCompound (tmpl tps) (map tree_param ps) (map (fun f => tree_member (pc_member f)) (tree_fields cases dflt))
        (map tree_fun gs)
  | PEnum t _ items _ => BEnum (map pit_name items) (tree_inst t)
  | PMask t _ items _ => BMask (map fst items) (tree_inst t)
  | PConst t _ _ => BConst (tree_inst t)
  | PSubtype t _ | PInstantiate t _ => BSubtype (tree_ref t false)
  | POther _ => BSubtype (native "")
  end.
Definition tree_import (i : list string * bool) : import :=
  if snd i then (String.concat "." (fst i), None)
  else (String.concat "." (removelast (fst i)), Some (last (fst i) "")).
Definition package_name (f : pfile) : string :=
  String.concat "." (match pl_package f with Some ids => ids | None => [] end).
(** The declarations of the files, as S_Link has them. *)
Definition tree_source (f : pfile) : string * (list (sdecl body) * list import) :=
  (package_name f, (map (fun d => (key d, tree_body d)) (filter known (pl_decls f)), map tree_import (pl_imports f))).
Definition declared (files : list (string * pfile)) : sources := map (fun f => tree_source (snd f)) files.

(** ** What the theorems are about *)

(** No templates; and nothing the compiler is known to ignore that matters to the
    encoding: default cases, [extend], [implicit], [explicit], removed items. *)
Definition type_simple (t : ptype) : Prop := match t with PName _ (_ :: _) => False | _ => True end.
Definition arg_simple (a : parg) : Prop := match a with PExplicit _ => False | PArg _ => True end.
Definition inst_simple (t : pinst) : Prop :=
  type_simple (pi_type t) /\ match pi_suffix t with PArgs l => Forall arg_simple l | _ => True end.
Definition member_simple (m : pmember) : Prop := inst_simple (pm_inst m) /\ pm_implicit m = false.
Definition field_simple (f : pfield) : Prop :=
  member_simple (pf_member f) /\ pf_extend f = false.
Definition cfield_simple (f : pcfield) : Prop := member_simple (pc_member f).
Definition simple (d : pdecl) : Prop :=
  match d with
  | PStruct _ [] ps fl gs =>
      Forall (fun p => type_simple (pp_type p)) ps /\ Forall field_simple fl
      /\ Forall (fun g => type_simple (pfn_type g)) gs
  | PUnion _ [] ps fl gs =>
      Forall (fun p => type_simple (pp_type p)) ps /\ Forall cfield_simple fl
      /\ Forall (fun g => type_simple (pfn_type g)) gs
  | PChoice _ [] ps _ cases None gs =>
      Forall (fun p => type_simple (pp_type p)) ps /\ Forall cfield_simple (tree_fields cases None)
      /\ Forall (fun g => type_simple (pfn_type g)) gs
  | PEnum t _ items _ => inst_simple t /\ Forall (fun i => pit_marker i <> Some Removed) items
  | PMask t _ _ _ | PConst t _ _ => inst_simple t
  | PSubtype t _ => type_simple t
  | POther _ => True
  | _ => False
  end.
Definition file_simple (f : string * pfile) : Prop :=
  schema_name (fst f) /\ file_formed (snd f) /\ Forall simple (pl_decls (snd f)).

(** ** The package *)

Inductive maybe {A B} (R : A -> B -> Prop) : option A -> option B -> Prop :=
| MbNone : maybe R None None
| MbSome a b : R a b -> maybe R (Some a) (Some b).

Definition expr_is (t : pexpr) (a : aexpr) : Prop := says t (a_src a).
Definition arg_is (t : parg) (a : sarg) : Prop :=
  match t, a with
  | PArg t, AVal a => expr_is t a
  | PArg t, AObj e => says t e
  | _, _ => False
  end.
(** The arguments of a type, or its length in bits. *)
Definition suffix_is (s : psuffix) (t : stype) : Prop :=
  match s, t with
  | PNone, SBuiltin _ => True
  | PNone, SRef _ l => l = []
  | PArgs ts, SRef _ l => Forall2 arg_is ts l
  | PLength e, SBits _ a => expr_is e a
  | _, _ => False
  end.
Definition align_is (t : option pexpr) (z : Z) : Prop :=
  match t with
  | None => z = 0
  | Some t => says t (ELit (LInt z))
  end.
Definition range_is (packed : bool) (r : option pexpr) (a : sarray) : Prop :=
  sa_packed a = packed /\ maybe expr_is r (sa_len a).
(** An offset; with [@index] in it, one offset for each element of an array. *)
Definition offset_is (t : option pexpr) (o : offset) : Prop :=
  match t with
  | None => o = NoOffset
  | Some t => exists e, says t e /\ o = if mentions_index e then IndexOffset else Offset
  end.
Definition field_is (m : pmember) (optional : bool) (align offset clause : option pexpr) (f : sfield) : Prop :=
  sf_name f = pm_name m /\ sf_optional f = optional /\ align_is align (sf_align f)
  /\ suffix_is (pi_suffix (pm_inst m)) (sf_ty f) /\ maybe expr_is clause (sf_clause f)
  /\ maybe (range_is (pm_packed m)) (pm_range m) (sf_array f)
  /\ offset_is offset (sf_offset f).
Definition struct_field_is (t : pfield) : sfield -> Prop :=
  field_is (pf_member t) (pf_optional t) (pf_align t) (pf_offset t) (pf_clause t).
Definition case_field_is (t : pcfield) : sfield -> Prop := field_is (pc_member t) false None None None.
Definition param_is (t : pparam) (f : sfield) : Prop :=
  suffix_is PNone (sf_ty f) /\ f = SF (pp_name t) (sf_ty f) None 0 NoOffset false None false.

(** A case label that is a plain name is an item of the type of the selector, a
    parameter. *)
Definition type_name (t : ptype) : string :=
  match t with PBuiltin s _ => s | PName ids _ => last ids "" end.
Inductive label_is (ps : list pparam) (sel : pexpr) : pexpr -> expr -> Prop :=
| LbItem p m : In p ps -> sel = PId (pp_name p) ->
    label_is ps sel (PId m) (EDot (EId (type_name (pp_type p))) m)
| LbOther t e : says t e -> (forall m, t <> PId m) -> label_is ps sel t e.
Definition case_is (ps : list pparam) (sel : pexpr) (t : list pexpr * option pcfield)
    (c : list expr * option sfield) : Prop :=
  Forall2 (label_is ps sel) (fst t) (fst c) /\ maybe case_field_is (snd t) (snd c).

(** Items have the values they ask for, or follow the item before. *)
Definition item_asks (t : option pexpr) (v : option Z) : Prop :=
  match t, v with
  | None, None => True
  | Some t, Some z => exists e, says t e /\ asks (Some e) (Some z)
  | _, _ => False
  end.
Definition enum_is (ts : list (option pexpr)) (l : list Z) : Prop :=
  exists asked, Forall2 item_asks ts asked /\ l = enum_spec (-1) asked
    /\ forall v, In v l -> - 2 ^ 31 <= v < 2 ^ 31 - 1.
Definition mask_is (ts : list (option pexpr)) (l : list Z) : Prop :=
  exists asked, Forall2 item_asks ts asked /\ l = bitmask_spec 0 asked /\ bitmask_increasing 0 asked
    /\ (forall v, In (Some v) asked -> 0 <= v) /\ forall v, In v (removelast l) -> v < 2 ^ 63.

Definition tree_is (t : pdecl) (d : sdef) : Prop :=
  match t, d with
  | PStruct nm _ ps fl _, SStruct nm' ps' fl' =>
      nm = nm' /\ Forall2 param_is ps ps' /\ Forall2 struct_field_is fl fl'
  | PUnion nm _ ps fl _, SUnion nm' ps' fl' =>
      nm = nm' /\ Forall2 param_is ps ps' /\ Forall2 case_field_is fl fl'
  | PChoice nm _ ps sel cases _ _, SChoice nm' ps' sel' cases' None =>
      nm = nm' /\ Forall2 param_is ps ps' /\ says sel sel' /\ Forall2 (case_is ps sel) cases cases'
  | PEnum _ nm items _, SEnum nm' _ l => nm = nm' /\ enum_is (map pit_value items) l
  | PMask _ nm items _, SMask nm' _ l => nm = nm' /\ mask_is (map snd items) l
  | _, _ => False
  end.

(** In the declaration [here] of package [p], the path [e] is a field of a declaration of
    some package: (package, declaration, field). *)
Inductive refers (src : sources) (p here : string) : expr -> string * string * string -> Prop :=
| RefOwn k x m t : S_Link.declares src p k here x -> member x m (SyField t) -> refers src p here (EId m) (p, here, m)
| RefDot e o t q q' n k x m u : S_Link.path src p here e (if o : bool then SyField t else SyParam t) q ->
    means src q t (Declared q' n k x) -> k = KdStruct \/ k = KdChoice -> member x m (SyField u) ->
    refers src p here (EDot e m) (q', n, m).
(** An offset is such a path, or an element of an array at the end of one. *)
Definition offset_refers (src : sources) (p here : string) (e : expr) : string * string * string -> Prop :=
  match e with EElem a _ => refers src p here a | _ => refers src p here e end.
(** The field [own] of a file has the offset [e]. *)
Definition has_offset (files : list (string * pfile)) (own : string * string * string) (e : expr) : Prop :=
  exists f nm tps ps fl gs t te, In f files /\ In (PStruct nm tps ps fl gs) (pl_decls (snd f)) /\ In t fl
    /\ own = (package_name (snd f), nm, pm_name (pf_member t)) /\ pf_offset t = Some te /\ says te e.
(** The fields that hold offsets. *)
Definition holds_offset (files : list (string * pfile)) (src : sources) (x : string * string * string) : Prop :=
  exists own e, has_offset files own e /\ offset_refers src (fst (fst own)) (snd (fst own)) e x.
(** All offsets are fields. *)
Definition offsets_fine (files : list (string * pfile)) (src : sources) : Prop :=
  forall f nm tps ps fl gs t te, In f files -> In (PStruct nm tps ps fl gs) (pl_decls (snd f)) -> In t fl ->
    pf_offset t = Some te ->
    exists e x, says te e /\ offset_refers src (package_name (snd f)) nm e x.
Definition marked (files : list (string * pfile)) (src : sources) (p : string) (d : sdef) : Prop :=
  forall f, In f (sdef_fields d) -> (sf_is_offset f = true <-> holds_offset files src (p, sdef_name d, sf_name f)).
(** Every declaration of [P] is written in a file of its package. *)
Definition describes (files : list (string * pfile)) (src : sources) (home : nat -> string) (P : package) : Prop :=
  forall n d, nth_error (pk_defs P) n = Some d ->
    exists f t, In f files /\ package_name (snd f) = home n /\ In t (pl_decls (snd f)) /\ tree_is t d
      /\ marked files src (home n) d.

(** The compiler accepts the selectors of the choices. *)
Definition selectors_fine (cb : build) (fuel : nat) (P : package) : Prop :=
  forall n nm ps sel cases dflt, nth_error (pk_defs P) n = Some (SChoice nm ps sel cases dflt) ->
    exists r, eval cb fuel (pk_scope P n) sel = Ok r.
