(** Specification for C74: a directory with the texts of schema files, and the schema they
    are the text of. *)
From Coq Require Import List String.
From Verif Require Import M_Visit S_Pkg S_Link S_Lex S_Parse.
Import ListNotations.

(** The files in the directory are the schema files [files], written down with whatever
    blanks and comments, and other files. *)
Inductive written : list (string * string) -> list (string * pfile) -> Prop :=
| WrNone : written [] []
| WrOther n s ts fs : ~ schema_name n -> written ts fs -> written ((n, s) :: ts) fs
| WrFile n s f ts fs : schema_name n -> file_wf f -> Forall token_wf (file_tokens f) -> shows (file_tokens f) s ->
    written ts fs -> written ((n, s) :: ts) ((n, f) :: fs).

(** The same in terms of what the texts consist of. *)
Inductive contain : list (string * string) -> list (string * pfile) -> Prop :=
| CnNone : contain [] []
| CnOther n s ts fs : ~ schema_name n -> contain ts fs -> contain ((n, s) :: ts) fs
| CnFile n s f ts fs : schema_name n -> consists_of (file_tokens f) s -> contain ts fs ->
    contain ((n, s) :: ts) ((n, f) :: fs).
