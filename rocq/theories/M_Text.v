(** Model of the first step of the compiler: from the files in a directory to the syntax
    trees of their packages.

    Rust is cited as [path:lines]; paths are relative to
    /repo/crates/zserio-rs-build/src/internal. *)
From Coq Require Import List String.
From Verif Require Import M_Base M_Pkg M_Link M_Visit M_Whole M_Parse M_Lex.
Import ListNotations.

(** [model.rs:33-47] Model::from_filesystem looks at the files with the ending of schema
    files; [model/package.rs:14-22] package_from_file reads the contents of each. A file is
    its name and its contents. After an error in the syntax of a file the program goes on
    with what the ANTLR runtime makes of it; that is not modelled, the result is [Fails]. *)
Fixpoint read_files (files : list (string * string)) : outcome (list (string * pfile)) :=
  match files with
  | [] => Parsed []
  | (name, contents) :: tl =>
      if is_schema_file name then
        match read_text contents, read_files tl with
        | Parsed f, Parsed l => Parsed ((name, f) :: l)
        | Parsed _, x => x
        | Fails, _ => Fails
        | Fuel, _ => Fuel
        end
      else read_files tl
  end.
(** [model.rs:33-55], [model/package.rs:14-27]: reading, and then [load]. *)
Definition load_texts (files : list (string * string)) : outcome (res asts) :=
  match read_files files with Parsed l => Parsed (load l) | Fails => Fails | Fuel => Fuel end.
