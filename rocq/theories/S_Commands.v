(** Vocabulary for C71: what is executed for a source file, and in which order. *)
From Verif Require Import Base M_Text M_Span M_Run M_Output M_Exec M_Rust M_Select M_Commands.
Local Open Scope string_scope.
Local Open Scope list_scope.

Inductive kind := KRust (flags : path -> option (list text)) | KGo | KPhp | KFoundry | KHardhat | KVitest.
Definition adapter_of (k : kind) root args exists_at ends denied extract : adapter :=
  match k with
  | KRust flags => rust_adapter args ends flags
  | KGo => go_adapter root args ends
  | KPhp => php_adapter root args exists_at ends
  | KFoundry => foundry_adapter root args exists_at ends
  | KHardhat => hardhat_adapter root args exists_at ends denied extract
  | KVitest => vitest_adapter root args exists_at ends denied extract
  end.
Definition collects (k : kind) : bool := match k with KHardhat | KVitest => true | _ => false end.   (* back ends that collect the names of tests *)

Section Spec.
Context (root : path) (args : list text) (exists_at : list command -> text -> option bool) (ends : list command -> command -> option (bool * list N)).
Definition in_root (program : string) (words : list text) : command := Command (s2t program) words [] (Some root).
Definition under (rel : path) : text := s2t "/" ++ join_path (root ++ rel).

(** The command that runs all the tests of a file. *)
Definition whole_file (k : kind) (rel : path) : command :=
  match k with
  | KRust flags => Command (s2t "cargo") ([s2t "test"] ++ match flags (root ++ rel) with Some f => f | None => [] end ++ args) [] None
  | KGo => in_root "go" ([s2t "test"; s2t "./" ++ join_path (removelast rel)] ++ args)
  | KPhp => in_root "vendor/bin/phpunit" ([join_path rel] ++ args)
  | KFoundry => Command (s2t "forge") ([s2t "test"; s2t "--match-path"; join_path rel] ++ args) [(s2t "FOUNDRY_FUZZ_RUNS", s2t "1")] (Some root)
  | KHardhat => in_root "npx" ([s2t "hardhat"; s2t "test"; under rel] ++ args)
  | KVitest => in_root "npx" ([s2t "vitest"; s2t "run"; under rel; s2t "--bail=1"; s2t "--reporter=json"] ++ args)
  end.
(** The command that checks that a file can be built. *)
Definition check_file (k : kind) (rel : path) : command :=
  match k with
  | KRust flags => Command (s2t "cargo") ([s2t "test"] ++ match flags (root ++ rel) with Some f => f | None => [] end ++ [s2t "--no-run"] ++ args) [] None
  | KGo => in_root "go" ([s2t "test"; s2t "./" ++ join_path (removelast rel); s2t "-run=^$"] ++ args)
  | KPhp => Command (s2t "php") ([s2t "-l"; under rel] ++ args) [] None
  | KFoundry => in_root "forge" ([s2t "build"] ++ args)
  | KHardhat => in_root "npx" ([s2t "hardhat"; s2t "compile"] ++ args)
  | KVitest => whole_file KVitest rel
  end.
(** What is executed before a file is run for the first time, and before a test is run. *)
Definition before_dry_run (k : kind) (rel : path) : list command := match k with KHardhat => [check_file k rel] | _ => [] end.
Definition before_test (k : kind) (rel : path) : list command := match k with KVitest => [] | _ => [check_file k rel] end.
(** The command that runs a test. *)
Definition one_test (k : kind) (test : text) (rel : path) : command :=
  match k with
  | KRust flags => Command (s2t "cargo") ([s2t "test"] ++ match flags (root ++ rel) with Some f => f | None => [] end ++ args ++ [s2t "--"; s2t "--exact"; test]) [] None
  | KGo => in_root "go" ([s2t "test"; s2t "./" ++ join_path (removelast rel); s2t "-run=^" ++ test ++ s2t "$"; s2t "-v"] ++ args)
  | KPhp => in_root "vendor/bin/phpunit" ([s2t "--filter"; s2t "^.*::" ++ test ++ s2t "$"; join_path rel] ++ args)
  | KFoundry => Command (s2t "forge") ([s2t "test"; s2t "--match-path"; join_path rel; s2t "--match-test"; test] ++ args) [(s2t "FOUNDRY_FUZZ_RUNS", s2t "1")] (Some root)
  | KHardhat | KVitest => whole_file k rel
  end.

(** The commands that install what is missing, in a given situation. *)
Inductive node_packages (ran : list command) : list command -> Prop :=
| np_there : exists_at ran (s2t "node_modules") = Some true -> node_packages ran []
| np_pnpm : exists_at ran (s2t "node_modules") = Some false -> exists_at ran (s2t "pnpm-lock.yaml") = Some true ->
    node_packages ran [in_root "pnpm" [s2t "install"]]
| np_yarn : exists_at ran (s2t "node_modules") = Some false -> exists_at ran (s2t "pnpm-lock.yaml") = Some false -> exists_at ran (s2t "yarn.lock") = Some true ->
    node_packages ran [in_root "yarn" []]
| np_npm : exists_at ran (s2t "node_modules") = Some false -> exists_at ran (s2t "pnpm-lock.yaml") = Some false -> exists_at ran (s2t "yarn.lock") = Some false ->
    node_packages ran [in_root "npm" [s2t "install"]].
Inductive packages (ran : list command) : kind -> list command -> Prop :=
| pk_rust flags : packages ran (KRust flags) []
| pk_go : packages ran KGo []
| pk_php_there : exists_at ran (s2t "vendor") = Some true -> packages ran KPhp []
| pk_php : exists_at ran (s2t "vendor") = Some false -> packages ran KPhp [in_root "composer" [s2t "install"]]
| pk_foundry_none : exists_at ran (s2t "package.json") = Some false -> packages ran KFoundry []
| pk_foundry p : exists_at ran (s2t "package.json") = Some true -> node_packages ran p -> packages ran KFoundry p
| pk_hardhat p : node_packages ran p -> packages ran KHardhat p
| pk_vitest p : node_packages ran p -> packages ran KVitest p.

(** Commands are executed one after the other until one does not succeed; [ok]: all did. *)
Inductive carried_out : list command -> list command -> list command -> bool -> Prop :=
| co_done ran : carried_out ran [] [] true
| co_stop ran c plan : (forall out, ends ran c <> Some (true, out)) -> carried_out ran (c :: plan) [c] false
| co_next ran c plan out done ok : ends ran c = Some (true, out) -> carried_out (c :: ran) plan done ok -> carried_out ran (c :: plan) (c :: done) ok.
End Spec.

(** The command [c'] is [c], run with the variable NECESSIST_REMOVAL set to [id], whatever else [c] sets. *)
Definition removing (id : text) (c c' : command) : Prop :=
  c_program c' = c_program c /\ c_args c' = c_args c /\ c_dir c' = c_dir c /\
  exists others, c_env c' = others ++ [(s2t "NECESSIST_REMOVAL", id)] /\ forall v, In v others <-> In v (c_env c).
