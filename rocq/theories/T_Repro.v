(** Property theorems: reproducible output of the compiler (C90). *)
From Coq Require Import ZArith List Bool String Permutation.
From Verif Require Import M_Base M_Expr M_Pkg M_Mod S_Mod M_Visit M_Item S_Item X_Item S_Repro X_Repro P_Repro.
Import ListNotations.
Open Scope Z_scope.
Local Open Scope list_scope.

(** Packages and declarations are kept in hash tables, whose order differs between runs.
    Whatever the orders are, every run writes the same files with the same contents, if no
    two declarations belong in one file; if one run succeeds, all do. *)
Theorem C90_same : forall G b o o' pkgs pkgs' fs,
  (forall l, Permutation (o l) l) -> (forall l, Permutation (o' l) l) -> Permutation pkgs pkgs' -> apart G pkgs ->
  gen_model G b o pkgs = Ok fs ->
  exists fs', gen_model G b o' pkgs' = Ok fs' /\ same_files fs fs'.
Proof. exact reproducible. Qed.
Print Assumptions C90_same.

(** The file of a declaration stays as it is whatever else changes in the schema ... *)
Theorem C90_local : forall G G' b b' o o' pkgs pkgs' fs fs',
  (forall l, Permutation (o l) l) -> (forall l, Permutation (o' l) l) -> apart G pkgs -> apart G' pkgs' ->
  gen_model G b o pkgs = Ok fs -> gen_model G' b' o' pkgs' = Ok fs' ->
  forall pkg z, In (pkg, z) (all_decls pkgs) -> In (pkg, z) (all_decls pkgs') -> agree G G' z ->
  forall c, content_of fs (decl_file G pkg z) c <-> content_of fs' (decl_file G' pkg z) c.
Proof. exact local_change. Qed.
Print Assumptions C90_local.
(** ... and that of a package as long as its declarations have the same names. *)
Theorem C90_package : forall G G' b b' o o' pkgs pkgs' fs fs',
  (forall l, Permutation (o l) l) -> (forall l, Permutation (o' l) l) -> apart G pkgs -> apart G' pkgs' ->
  gen_model G b o pkgs = Ok fs -> gen_model G' b' o' pkgs' = Ok fs' -> g_snake G = g_snake G' ->
  forall pkg p p', In (pkg, p) pkgs -> In (pkg, p') pkgs' ->
  Permutation (map decl_name (decls_of p)) (map decl_name (decls_of p')) ->
  forall c, content_of fs (package_file G pkg) c <-> content_of fs' (package_file G' pkg) c.
Proof. exact package_file_same. Qed.
Print Assumptions C90_package.

(** Two declarations of one package may belong in one file ([Ab] and [AB] in [ab.rs]). Then
    the one written last is left, which depends on the order of the hash table. *)
Theorem C90_overwritten_refuted : exists G b o o' pkgs fs fs' p c,
  (forall l, Permutation (o l) l) /\ (forall l, Permutation (o' l) l)
  /\ gen_model G b o pkgs = Ok fs /\ gen_model G b o' pkgs = Ok fs'
  /\ content_of fs p c /\ ~ content_of fs' p c.
Proof. exact overwritten. Qed.
Print Assumptions C90_overwritten_refuted.

Example C90_case : exists fs, gen_model xi_env Debug (fun l => l) xi_pkgs = Ok fs
  /\ apart xi_env xi_pkgs /\ Permutation xi_pkgs (rev xi_pkgs)
  /\ (forall l : list (string * zdecl), Permutation (rev l) l).
Proof. exact repro_case. Qed.
Example C90_local_case : exists fs, gen_model xi_env Release (@rev _) [("util"%string, xp_util)] = Ok fs
  /\ apart xi_env [("util"%string, xp_util)]
  /\ In ("util"%string, xi_name) (all_decls xi_pkgs) /\ In ("util"%string, xi_name) (all_decls [("util"%string, xp_util)])
  /\ agree xi_env xi_env xi_name.
Proof. exact local_case. Qed.
