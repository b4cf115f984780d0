(** Specification vocabulary for templates. *)
From Coq Require Import ZArith List Bool String.
From Verif Require Import M_Base M_Expr M_Scope M_Templ.
Import ListNotations.
Open Scope nat_scope.

(** Substitution of types for type names, to any depth. The arguments passed to
    a parameterised type stay where they are. *)
Definition subst_env : Type := string -> option ty.
Fixpoint tsubst (s : subst_env) (t : ty) : ty :=
  match t with
  | Ty b p n k [] a len =>
      match s n with Some u => set_args u a | None => t end
  | Ty b p n k targs a len => Ty b p n k (map (tsubst s) targs) a len
  end.

(** The names of the template parameters stand for the arguments. *)
Fixpoint bind_params (params : list string) (types : list ty) : subst_env :=
  match params, types with
  | p :: ps, t :: ts => fun n => if String.eqb n p then Some t else bind_params ps ts n
  | _, _ => fun _ => None
  end.

(** The type called [n] of package [p], given the arguments [args]. *)
Definition type_in (p n : string) (args : list expr) : ty := Ty false p n 0 [] args None.
(** The name [n] stands for the declaration [d]: it is declared in the package, or
    nothing of that name is and [d] is what is imported. *)
Definition found (ext : string -> res decl) (st : state) (n : string) (d : decl) : Prop :=
  match assoc (st_syms st) n with
  | Some here => here = Some d
  | None => ext n = Ok d
  end.

(** What a use of a type is replaced by: uses of templates by the name of their
    instantiation in package [p], other types stay. *)
Definition used_as (p : string) (t : ty) : ty :=
  match t_targs t with
  | [] => t
  | _ => type_in p (inst_name t) (t_args t)
  end.

(** Template arguments are written without arguments of their own
    (ZserioParser.g4:338-340). *)
Definition no_args (t : ty) : Prop := t_args t = [].

(** The name [n] occurs in [t] as the name of a type that is no template. *)
Fixpoint mentions (n : string) (t : ty) : bool :=
  match t with
  | Ty _ _ m _ [] _ _ => String.eqb n m
  | Ty _ _ _ _ targs _ _ => existsb (mentions n) targs
  end.

(** In the template arguments used inside the declaration, the parameters occur
    directly, not inside further template arguments; and a template is not named
    like a parameter. *)
Definition shallow_arg (params : list string) (a : ty) : Prop :=
  no_args a /\
  (t_targs a <> [] -> ~ In (t_name a) params /\ forall n, In n params -> mentions n a = false).
Definition shallow (params : list string) (t : ty) : Prop :=
  Forall (shallow_arg params) (t_targs t).
(** Types without template arguments. *)
Definition simple (t : ty) : Prop := t_targs t = [] /\ no_args t.

(** The names on which templates are used, written one after the other, are
    their generated name. *)
Definition spelling (t : ty) : list string := t_name t :: map t_name (t_targs t).

(** No name of the set is empty or the beginning of another one. *)
Definition prefix_free (N : string -> Prop) : Prop :=
  (forall x, N x -> x <> ""%string) /\
  forall x y z, N x -> N y -> (x ++ z)%string = y -> x = y.

(** A type without package, arguments or length, as template arguments often are. *)
Definition named (n : string) : ty := Ty false "" n 0 [] [] None.
(** [f] applied to the type of a field, parameter or function. *)
Definition on_type (f : ty -> ty) (x : string * ty) : string * ty := (fst x, f (snd x)).
(** The name of an instantiation: the one given by [instantiate type ... name],
    otherwise the generated one. *)
Definition final_name (t : ty) (name : string) : string :=
  if String.eqb name "" then inst_name t else name.
(** All declarations of [st] are unchanged in [st']. *)
Definition extends (st st' : state) : Prop :=
  forall k n d, lookup st k n = Some d -> lookup st' k n = Some d.
(** What the template [d] of the package [p] means for the arguments [args]. *)
Definition param_env (d : decl) (p : string) (args : list ty) : subst_env :=
  bind_params (d_tparams d) (map (used_as p) args).
