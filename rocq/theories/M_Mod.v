(** Model of the generation of the module files.
    Rust is cited as [path:lines]; paths are relative to /repo/crates; [generator]
    abbreviates zserio-rs-build/src/internal/generator. *)
From Coq Require Import ZArith List Bool String Ascii.
From Verif Require Import M_Base.
Import ListNotations.
Open Scope Z_scope.

(** [generator/mod_file.rs:10-12] ZserioModuleTreeNode. The children are a HashMap, here an
    association list in the order of insertion; what is generated from it does
    not depend on that order. *)
Inductive mtree := Node (children : list (string * mtree)).

(** [str::split('.')]. *)
Fixpoint split_dot (s : string) : list string :=
  match s with
  | EmptyString => [""%string]
  | String c s' =>
      if Ascii.eqb c "."%char then ""%string :: split_dot s'
      else match split_dot s' with
           | [] => [String c ""]
           | h :: t => String c h :: t
           end
  end.

(** The module path of a package. [mn] is [TypeGenerator::to_rust_module_name]
    ([generator/types.rs:53-55]), whose conversion to snake case is that of the crate
    stringcase; any function here. *)
Definition module_path (mn : string -> string) (pkg : string) : list string :=
  map mn (split_dot pkg).

(** [generator/mod_file.rs:20-43] the child of that name, created if there is none, is
    the next current node. *)
Fixpoint upd_child (f : mtree -> mtree) (m : string) (cs : list (string * mtree))
  : list (string * mtree) :=
  match cs with
  | [] => [(m, f (Node []))]
  | (n, c) :: tl => if String.eqb m n then (n, f c) :: tl else (n, c) :: upd_child f m tl
  end.
(** [generator/mod_file.rs:14-45] add_package_to_tree. *)
Fixpoint add_path (path : list string) (t : mtree) : mtree :=
  match path with
  | [] => t
  | m :: rest => match t with Node cs => Node (upd_child (add_path rest) m cs) end
  end.

(** The pieces written to the file: [#[rustfmt::skip]], [pub mod n {], [}] and
    [pub mod n;]. *)
Inductive mtok := TSkip | TOpen (n : string) | TClose | TLeaf (n : string).

(** [sorted_by_key]: the keys are different, so any sort gives this order. *)
Fixpoint insert_by {A} (x : string * A) (l : list (string * A)) : list (string * A) :=
  match l with
  | [] => [x]
  | y :: tl => if String.leb (fst x) (fst y) then x :: l else y :: insert_by x tl
  end.
Definition sort_by {A} (l : list (string * A)) : list (string * A) := fold_right insert_by [] l.

Fixpoint concat_res {A} (l : list (res (list A))) : res (list A) :=
  match l with
  | [] => Ok []
  | x :: tl => do a <- x ; do b <- concat_res tl ; Ok (a ++ b)
  end.

(** [generator/mod_file.rs:47-80] generate_mod_section; [level] is a u8. The text of each
    child is computed before sorting instead of after. *)
Fixpoint gen_section (b : build) (name : string) (t : mtree) (level : Z) : res (list mtok) :=
  match t with
  | Node cs =>
      let skip := if level <=? 1 then [TSkip] else [] in
      let children :=
        concat_res (map snd (sort_by
          (map (fun nc => (fst nc, do l <- arith_u b 8 (level + 1) ; gen_section b (fst nc) (snd nc) l))
               cs))) in
      if String.eqb name "" then children
      else match cs with
           | [] => Ok (skip ++ [TLeaf name])
           | _ => do body <- children ; Ok (skip ++ TOpen name :: body ++ [TClose])
           end
  end.

(** [generator/mod_file.rs:84-107] generate_top_level_mod_file, the content of the file.
    [names] are the names of the packages in the order of the HashMap. *)
Definition top_level (b : build) (mn : string -> string) (names : list string) : res (list mtok) :=
  gen_section b "" (fold_left (fun t n => add_path (module_path mn n) t) names (Node [])) 0.

(** [generator/file_generator.rs:7-26] write_to_file: the path of a file below the root
    directory, as its directories and its name without [.rs]. A directory with the
    empty name is the directory itself. *)
Definition nonempty (s : string) : bool := negb (String.eqb s "").
Definition file_path (mn : string -> string) (pkg name : string) : list string :=
  filter nonempty (map mn (split_dot pkg)) ++ [name].

(** [generator/package.rs:165-171] the module declarations of the file of a package, from
    the module names of its generated types; [sort_unstable] on strings. *)
Definition package_mods (modules : list string) : list string :=
  map fst (sort_by (map (fun m => (m, tt)) modules)).

(** [generator/package.rs:12-174] generate_package: the files written, in order; the
    module names of the generated types and then the file of the package itself. *)
Definition package_files (mn : string -> string) (pkg : string) (modules : list string)
  : list (list string) :=
  map (file_path mn pkg) modules ++ [file_path mn pkg "mod"].

(** [generator/model.rs:8-20] generate_model: the files written, in order. *)
Definition model_files (mn : string -> string) (root : string)
    (pkgs : list (string * list string)) : list (list string) :=
  List.concat (map (fun p => package_files mn (fst p) (snd p)) pkgs)
  ++ [file_path mn "" (if String.eqb root "" then "lib" else "mod")].
