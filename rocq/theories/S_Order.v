(** Specification vocabulary for the instantiation of all templates of a package: the
    uses of templates that arise, and when they are told apart by their names. *)
From Coq Require Import ZArith List Bool String.
From Verif Require Import M_Base M_Expr M_Scope M_Templ M_Pkg S_Templ.
Import ListNotations.

Definition is_use (t : ty) : bool := match t_targs t with [] => false | _ => true end.
(** [t] with [s] substituted in its template arguments. *)
Definition subst_args (s : subst_env) (t : ty) : ty :=
  set_targs t (map (fun a => match s (t_name a) with Some u => u | None => a end) (t_targs t)).

(** The uses of templates that the use [t] of the template [d] brings with it: those
    among its arguments and those of the fields of [d]. *)
Definition brings (p : string) (d : decl) (t : ty) : list ty :=
  filter is_use (t_targs t)
  ++ map (subst_args (param_env d p (t_targs t))) (filter is_use (map snd (d_fields d))).

(** The uses of templates in the declarations [ds], and those they bring with them. *)
Inductive arises (ext : string -> res decl) (p : string) (st : state) (ds : list decl) : ty -> Prop :=
| ArField d f : In d ds -> d_tparams d = [] -> In f (d_fields d) -> is_use (snd f) = true ->
    arises ext p st ds (snd f)
| ArBrought t d u : arises ext p st ds t -> found ext st (t_name t) d ->
    In u (brings p d t) -> arises ext p st ds u.

(** Different uses get different names, none of which is the name of a template in use;
    the parameters of a template are different. *)
Record distinct_names (ext : string -> res decl) (p : string) (st : state) (ds : list decl) : Prop :=
  { dn_unique : forall t u, arises ext p st ds t -> arises ext p st ds u ->
      inst_name t = inst_name u -> t_name t = t_name u /\ t_targs t = t_targs u;
    dn_template : forall t u, arises ext p st ds t -> arises ext p st ds u ->
      inst_name t <> t_name u;
    dn_params : forall n d, found ext st n d -> NoDup (d_tparams d) }.
