(** Property theorems: module files (C49). *)
From Coq Require Import ZArith List Bool String Ascii Lia Sorted Permutation.
From Verif Require Import M_Base M_Mod S_Mod P_Mod.
Import ListNotations.
Open Scope string_scope.

(** The top-level file declares exactly the packages and the packages around them,
    each once, in increasing order at each level; and those loaded from a file are
    the packages that contain no other package. *)
Theorem C49_declared : forall b mn names toks, no_empty mn names ->
  top_level b mn names = Ok toks ->
  exists its, read_mods [] [] toks = Some its
    /\ NoDup (paths its) /\ ordered its
    /\ (forall p, In p (paths its) <->
          p <> [] /\ exists q, package_path mn names q /\ prefix_of p q)
    /\ (forall p, In p (loads its) <->
          package_path mn names p /\ ~ exists q, package_path mn names q /\ proper_prefix p q).
Proof. exact top_level_spec. Qed.
Print Assumptions C49_declared.

(** The file depends only on the set of package paths, not on the order in which the
    packages are visited. *)
Theorem C49_order_irrelevant : forall b mn names names', no_empty mn names ->
  (forall p, package_path mn names p <-> package_path mn names' p) ->
  top_level b mn names = top_level b mn names'.
Proof. exact top_level_order. Qed.
Print Assumptions C49_order_irrelevant.

(** It is always generated by a release build, and by a debug build unless a package
    name has more than 255 parts. *)
Theorem C49_release_total : forall mn names, exists toks, top_level Release mn names = Ok toks.
Proof. exact top_level_release. Qed.
Print Assumptions C49_release_total.
Theorem C49_debug_depth : forall mn names, no_empty mn names ->
  ((forall n, In n names -> (zlen (module_path mn n) <= 255)%Z) ->
     exists toks, top_level Debug mn names = Ok toks)
  /\ ((exists n, In n names /\ (255 < zlen (module_path mn n))%Z) ->
     top_level Debug mn names = Panic).
Proof. exact top_level_debug. Qed.
Print Assumptions C49_debug_depth.

(** The file of a package declares the modules of its types in order, as often as they
    are generated; in particular each once if their names differ, and then whatever
    the order of generation. *)
Theorem C49_package_file : forall l,
  Permutation (package_mods l) l
  /\ (NoDup l -> StronglySorted str_lt (package_mods l)).
Proof. exact package_mods_sorted. Qed.
Print Assumptions C49_package_file.
Theorem C49_package_order : forall l l', NoDup l -> Permutation l l' ->
  package_mods l = package_mods l'.
Proof. exact package_mods_order. Qed.
Print Assumptions C49_package_order.

(** No generated file overwrites another if packages have different, nonempty
    directories, and the module names in a package differ from each other and from
    [mod]. *)
Theorem C49_no_overwrite : forall mn root pkgs,
  mn "" = "" ->
  NoDup (map (fun p => directory mn (fst p)) pkgs) ->
  (forall p, In p pkgs -> directory mn (fst p) <> [] /\ NoDup (snd p) /\ ~ In "mod" (snd p)) ->
  NoDup (model_files mn root pkgs).
Proof. exact model_files_nodup. Qed.
Print Assumptions C49_no_overwrite.

(** packages map.core, map.geo.line, util *)
Definition ex_names := ["map.geo.line"; "util"; "map.core"].
Definition same : string -> string := fun s => s.
Example C49_case :
  no_empty same ex_names
  /\ top_level Debug same ex_names
     = Ok [TSkip; TOpen "map"; TLeaf "core"; TOpen "geo"; TLeaf "line"; TClose; TClose;
           TSkip; TLeaf "util"]
  /\ read_mods [] [] [TSkip; TOpen "map"; TLeaf "core"; TOpen "geo"; TLeaf "line"; TClose; TClose;
           TSkip; TLeaf "util"]
     = Some [Inline "map" [Leaf "core"; Inline "geo" [Leaf "line"]]; Leaf "util"]
  /\ NoDup (model_files same "" [("map.core", ["a"; "b"]); ("util", ["a"])]).
Proof.
  split.
  - intros n s [<-|[<-|[<-|[]]]]; cbn; intuition (subst; discriminate).
  - split; [vm_compute; reflexivity|]. split; [reflexivity|].
    apply C49_no_overwrite; [reflexivity|cbn; repeat constructor; cbn; intuition discriminate|].
    intros p [<-|[<-|[]]]; cbn; (split; [discriminate|]);
      (split; [repeat constructor; cbn; intuition discriminate|intuition discriminate]).
Qed.

(** A package that contains another one is declared, but its types are not: with the
    packages [map] and [map.core] the file of [map] is never loaded. *)
Theorem C49_enclosing_refuted :
  exists toks its, top_level Debug same ["map"; "map.core"] = Ok toks
    /\ read_mods [] [] toks = Some its /\ loads its = [["map"; "core"]]
    /\ In (file_path same "map" "mod") (model_files same "" [("map", ["a"]); ("map.core", ["b"])])
    /\ ~ In ["map"] (loads its).
Proof.
  eexists. eexists. split; [vm_compute; reflexivity|]. split; [reflexivity|]. split; [reflexivity|].
  split; [cbn; tauto|]. cbn. intuition discriminate.
Qed.
Print Assumptions C49_enclosing_refuted.

(** Types without a package are generated into the root directory, and their module file
    is overwritten by the top-level one if there is a root package. *)
Theorem C49_default_package_refuted : forall mn root pkgs l,
  mn "" = "" -> root <> "" -> In ("", l) pkgs -> ~ NoDup (model_files mn root pkgs).
Proof. exact model_files_default. Qed.
Print Assumptions C49_default_package_refuted.
