(** Model of how the compiler finds the fields that offsets refer to.
    Rust is cited as [path:lines]; paths are relative to
    /repo/crates/zserio-rs-build/src/internal. *)
From Coq Require Import ZArith List Bool String.
From Verif Require Import M_Base M_Gen M_Expr M_Scope M_Templ M_Pkg M_Lit M_Link M_Visit M_Comp M_Whole.
Import ListNotations.

(** A field: its package, its declaration and its name. *)
Definition spot : Type := (string * string * string)%type.
Definition same_spot (x y : spot) : bool :=
  String.eqb (fst (fst x)) (fst (fst y)) && String.eqb (snd (fst x)) (snd (fst y)) && String.eqb (snd x) (snd y).

Section Offset.
Variables (cb : build) (fuel : nat) (M : model symbol) (p here : string).

(** [generator/index_offsets.rs:5-20] extract_indexed_offset_expression. *)
Definition offset_target (e : expr) : expr := match e with EElem a _ => a | _ => e end.

(** [compiler/symbol_scope.rs:106-162], [ast/expression.rs:235-281]: the field that [symbol] is after
    the evaluation of [e], if it is one. In the code it is a pointer; here it is said
    where the field is declared. Only members of the declaration on top of the stack
    are fields. *)
Definition field_named (e : expr) : option spot :=
  match eval cb fuel (scope_at fuel M p (Some here)) e with
  | Ok r =>
      match e_sym r, e with
      | Some (SyField _), EId m => Some (p, here, m)
      | Some (SyField _), EDot a m =>
          match eval cb fuel (scope_at fuel M p (Some here)) a with
          | Ok x =>
              match e_sym x with
              | Some (SyField t) | Some (SyParam t) =>
                  option_map (fun s => (fst s, snd s, m)) (compound_place fuel M t)
              | _ => None
              end
          | _ => None
          end
      | _, _ => None
      end
  | _ => None
  end.
(** [ast/expression.rs:243-251, 636-640]: the fields that are borrowed while [e] is evaluated. *)
Fixpoint borrowed (e : expr) : list spot :=
  match field_named e with Some x => [x] | None => [] end
  ++ match e with
     | EParen a | ECall a | EDot a _ | ELengthof a | EValueof a | ENumbits a | EUn _ a => borrowed a
     | EElem a i | EIsset a i | EBin _ a i => borrowed a ++ borrowed i
     | ETern c a d => borrowed c ++ borrowed a ++ borrowed d
     | ELit _ | EIndex | EId _ => []
     end.
(** [ast/field.rs:66-94], [ast/zstruct.rs:29-31]: the field that is marked for the offset [e] of the
    field [own]. [own] is borrowed mutably meanwhile, so a borrow of it aborts; so
    does an offset that is not a field. *)
Definition mark_offset (own : spot) (e : expr) : res spot :=
  if existsb (same_spot own) (borrowed e) then Panic
  else do _ <- eval cb fuel (scope_at fuel M p (Some here)) e ;
       match field_named (offset_target e) with
       | Some x => Ok x
       | None => Panic
       end.
End Offset.

(** [ast/zstruct.rs:19-34] the offsets of the fields of a structure; templates are skipped. Fields of
    choices and unions have none (M_Visit.visit_cfield). *)
Definition struct_offsets (p : string) (z : zdecl) : list (spot * node) :=
  match z with
  | ZStruct nm [] _ fl _ =>
      flat_map (fun f => match zf_offset f with Some x => [((p, nm, zf_name f), x)] | None => [] end) fl
  | _ => []
  end.
(** [model.rs:212-224]; the map of structures is iterated in some order, which does not
    matter for the set of marked fields. *)
Definition offsets_in (a : asts) : list (spot * node) :=
  flat_map (fun q => flat_map (fun d => struct_offsets (fst q) (snd d)) (zp_structs (fst (snd q)))) a.
(** [model.rs:212-281] evaluate_package: the fields with [is_offset_field]. The parser leaves
    no expression that [read] does not know. *)
Definition offset_marks (cb : build) (fuel : nat) (M : model symbol) (a : asts) : res (list spot) :=
  mapM (fun x : spot * node =>
          match read (snd x) with
          | Some e => mark_offset cb fuel M (fst (fst (fst x))) (snd (fst (fst x))) (fst x) e
          | None => Panic
          end) (offsets_in a).
