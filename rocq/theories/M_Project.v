(** Model of a back end's [parse] as an invocation uses it: backends/src/lib.rs:85-120 (which implementation a framework has),
    backends/src/parsing.rs:370-482 ([M_Parsing]) on the files that are found ([M_Find]) with the texts that they have. *)
From Verif Require Import Base M_Text M_Rewriter M_Span M_Run M_Output M_Options M_Config M_Visitor M_Parsing M_Find.

(** backends/src/lib.rs:85-120 [to_implementation], backends/src/anchor/mod.rs, hardhat/mod.rs, vitest/mod.rs: three
    frameworks share the TypeScript front end. *)
Definition visitor_of (f : M_Options.framework) : M_Visitor.framework :=
  match f with
  | Anchor | Hardhat | Vitest => fw_ts
  | Foundry => fw_foundry
  | Go => fw_go
  | Php => fw_php
  | Rust => fw_rust
  end.
(** The files each of them looks for; Anchor's depend on its test runner (anchor/mod.rs:45-48). *)
Definition finder_of (anchor : finder) (f : M_Options.framework) : finder :=
  match f with
  | Anchor => anchor
  | Foundry => find_foundry
  | Go => find_go
  | Hardhat => find_hardhat
  | Php => find_php
  | Rust => find_rust
  | Vitest => find_vitest
  end.

Section Project.
Context (alphanumeric : char -> bool) (denied : warning -> bool) (parser : M_Options.framework -> path -> text -> option pfile).
Context (anchor : finder) (ignored : path -> bool) (root : path) (tree : entry).   (* the directory [root], see [M_Find] *)

(** [read_to_string] of a file below the root: it fails if the file is not text. *)
Definition read_source (src : path -> text) (full : path) : option text :=
  match strip_components root full with
  | Some p => if forallb is_scalar (src p) then Some (src p) else None
  | None => None
  end.
(** [backend.parse] (core/src/framework/mod.rs: [Interface]; core/src/core.rs:233-240); errors are not told apart. *)
Definition project_parse (f : M_Options.framework) (c : toml) (paths : list path) (src : path -> text)
    : res unit (nat * list (path * span_test_maps)) :=
  match snd (parse alphanumeric (visitor_of f) (builtin_of f) (parser f) denied root (read_source src)
               (fs_is_dir root tree) (fs_is_file root tree) (walk_dir ignored root tree (finder_of anchor f)) c paths) with
  | Ok x => Ok x
  | Err _ => Err tt
  | Panic => Panic
  end.
End Project.
