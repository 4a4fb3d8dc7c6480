(** Model of the commands that the back ends Rust, Go, PHP and Foundry have executed: backends/src/running.rs:107-178
    ([RunAdapter]) and the implementations of [RunLow] in backends/src/{rust,go,php,foundry}/mod.rs.

    A path inside the project is given by its components below the file system's root.  [to_string_lossy] is rendered as
    the identity.  The environment lists what the command adds to the inherited one. *)
From Verif Require Import Base M_Text M_Span M_Run M_Output M_Exec M_Rust.
Local Open Scope string_scope.
Local Open Scope list_scope.

(** [std::process::Command]. *)
Record command := Command {
  c_program : text;
  c_args : list text;
  c_env : list (text * text);
  c_dir : option path           (* None: the current directory is inherited *)
}.
(** [Command::args]. *)
Definition add_args (c : command) (args : list text) : command :=
  Command (c_program c) (c_args c ++ args) (c_env c) (c_dir c).

(** running.rs:21-58 [RunLow], the commands only.  [Panic]: the path is not below the root ([unwrap], [expect]). *)
Record run_low := RunLow {
  to_run_source_file : path -> res unit command;
  to_build_source_file : path -> res unit command;
  to_build_test : text -> path -> res unit command;
  to_run_test : text -> path -> res unit (command * list text * option (bool * (text -> bool)))
}.

(** running.rs:112-126 [dry_run], after [install_dependencies]. *)
Definition dry_run_command (b : run_low) (args : list text) (source : path) : res unit command :=
  bind (to_run_source_file b source) (fun c => Ok (add_args c args)).
(** running.rs:143-153 [build_source_file]. *)
Definition build_command (b : run_low) (args : list text) (source : path) : res unit command :=
  bind (to_build_source_file b source) (fun c => Ok (add_args c args)).
(** running.rs:162-177 [exec]: the command executed first, the one executed if that succeeds, and the check of its output. *)
Definition exec_commands (b : run_low) (args : list text) (test : text) (source : path)
  : res unit (command * command * option (bool * (text -> bool))) :=
  bind (to_build_test b test source) (fun build =>
  bind (to_run_test b test source) (fun r =>
    let '(c, final_args, check) := r in
    Ok (add_args build args, add_args (add_args c args) final_args, check))).

(** core/src/util.rs [strip_prefix] with [unwrap]. *)
Definition below (root source : path) : res unit path :=
  match strip_components root source with Some r => Ok r | None => Panic end.

(** ** Rust: rust/mod.rs:625-627, 648-690 *)
Section RustCommands.
Context (flags : path -> option (list text)).     (* the cached flags, [M_Rust.source_file_flags] *)
(** 680-690 [test_command]. *)
Definition rust_test_command (source : path) : res unit command :=
  match flags source with
  | Some f => Ok (Command (s2t "cargo") (s2t "test" :: f) [] None)
  | None => Panic
  end.
Definition rust_build (source : path) : res unit command :=
  bind (rust_test_command source) (fun c => Ok (add_args c [s2t "--no-run"])).
Definition rust_low : run_low := RunLow
  rust_test_command
  rust_build
  (fun _ source => rust_build source)
  (fun test source => bind (rust_test_command source) (fun c =>
     Ok (c, [s2t "--"; s2t "--exact"; test], Some (rust_check test)))).
End RustCommands.

(** rust/mod.rs:763-768: the command whose output the names of tests are read from. *)
Definition list_command (flags args : list text) : command :=
  Command (s2t "cargo") (s2t "test" :: flags ++ args ++ [s2t "--"; s2t "--list"; s2t "--format=terse"]) [] None.
(** [str::strip_suffix]. *)
Definition strip_suffix (suffix t : text) : option text :=
  match strip_prefix (rev suffix) (rev t) with Some r => Some (rev r) | None => None end.
Fixpoint filter_map {A B} (f : A -> option B) (l : list A) : list B :=
  match l with
  | [] => []
  | x :: r => match f x with Some y => y :: filter_map f r | None => filter_map f r end
  end.
(** rust/mod.rs:775-779. *)
Definition listed_names (stdout : text) : list text := filter_map (strip_suffix (s2t ": test")) (lines stdout).

(** ** Go: go/mod.rs:448-450, 501-534, 578-600 *)
Section GoCommands.
Context (root : path).
(** 593-600 [source_file_package_path]; [Path::new(".").join("")] is "./". *)
Definition package_path (source : path) : res unit text :=
  bind (below root (removelast source)) (fun dir => Ok (s2t "./" ++ join_path dir)).
(** 580-590 [test_command]. *)
Definition go_test_command (source : path) : res unit command :=
  bind (package_path source) (fun p => Ok (Command (s2t "go") [s2t "test"; p] [] (Some root))).
Definition go_build (source : path) : res unit command :=
  bind (go_test_command source) (fun c => Ok (add_args c [s2t "-run=^$"])).
Definition go_low : run_low := RunLow
  go_test_command
  go_build
  (fun _ source => go_build source)
  (fun test source => bind (go_test_command source) (fun c =>
     Ok (add_args c [s2t "-run=^" ++ test ++ s2t "$"; s2t "-v"], [], Some (go_check test)))).

(** ** PHP: php/mod.rs:537-547, 567-603 *)
Definition php_build (source : path) : res unit command :=
  Ok (Command (s2t "php") [s2t "-l"; SLASH :: join_path source] [] None).
Definition php_low : run_low := RunLow
  (fun source => bind (below root source) (fun rel =>
     Ok (Command (s2t "vendor/bin/phpunit") [join_path rel] [] (Some root))))
  php_build
  (fun _ source => php_build source)
  (fun test source => bind (below root source) (fun rel =>
     Ok (Command (s2t "vendor/bin/phpunit") [s2t "--filter"; s2t "^.*::" ++ test ++ s2t "$"; join_path rel] [] (Some root), [], None))).

(** ** Foundry: foundry/mod.rs:403-405, 427-490 *)
Definition foundry_test_command (source : path) : res unit command :=
  bind (below root source) (fun rel =>
    Ok (Command (s2t "forge") [s2t "test"; s2t "--match-path"; join_path rel] [(s2t "FOUNDRY_FUZZ_RUNS", s2t "1")] (Some root))).
Definition foundry_build : res unit command := Ok (Command (s2t "forge") [s2t "build"] [] (Some root)).
Definition foundry_low : run_low := RunLow
  foundry_test_command
  (fun _ => foundry_build)
  (fun _ _ => foundry_build)
  (fun test source => bind (foundry_test_command source) (fun c =>
     Ok (add_args c [s2t "--match-test"; test], [], Some (foundry_check test)))).
End GoCommands.
