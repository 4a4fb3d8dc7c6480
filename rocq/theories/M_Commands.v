(** Model of what the back ends have executed in a dry run, a check and an execution, and in which order: the commands of
    [M_Select] (Rust, Go, PHP, Foundry) in backends/src/running.rs:112-256, the back ends Hardhat and Vitest
    (backends/src/hardhat/mod.rs, backends/src/vitest/mod.rs, backends/src/ts/inner/mod.rs:92-172), and the installation of
    dependencies.  Anchor is in [M_Anchor].  Windows is not modelled, nor the debug output. *)
From Verif Require Import Base M_Text M_Span M_Run M_Output M_Exec M_Rust M_Select.
Local Open Scope string_scope.
Local Open Scope list_scope.

Inductive cerror :=
| CLook                       (* [try_exists] fails *)
| CStart                      (* a command cannot be run *)
| CFailed (c : command)       (* it is run without success *)
| CMessages                   (* the messages cannot be extracted *)
| CDenied.                    (* a warning that is denied *)

(** What has been executed (newest first), what is known about [it] messages, and which warnings were issued. *)
Record cworld := CW { cw_ran : list command; cw_known : it_map; cw_warned : list (path * text) }.

Section Commands.
Context (root : path) (args : list text).
(** The surroundings.  After the commands given (newest first): does the entry exist in the root ([None]: error), and how
    does a command end ([None]: it cannot be run)? *)
Context (exists_at : list command -> text -> option bool) (ends : list command -> command -> option (bool * list N)).
Context (denied : bool).                                  (* the warning it-message-not-found is denied *)

(** [output_stripped_of_ansi_escapes]?, then the test of the status: utils.rs; running.rs:119-124. *)
Definition output (c : command) (w : cworld) : cworld * res cerror (list N) :=
  (CW (c :: cw_ran w) (cw_known w) (cw_warned w),
   match ends (cw_ran w) c with
   | None => Err CStart
   | Some (true, stdout) => Ok stdout
   | Some (false, _) => Err (CFailed c)
   end).
Definition then_ {A B} (x : cworld * res cerror A) (f : A -> cworld -> cworld * res cerror B) : cworld * res cerror B :=
  match x with (w, Ok a) => f a w | (w, Err e) => (w, Err e) | (w, Panic) => (w, Panic) end.
Definition try_exists (name : text) (w : cworld) : cworld * res cerror bool :=
  (w, match exists_at (cw_ran w) name with Some b => Ok b | None => Err CLook end).
Definition lift {A} (r : res unit A) (w : cworld) : cworld * res cerror A :=    (* only [Panic] occurs besides [Ok] *)
  (w, match r with Ok a => Ok a | _ => Panic end).

(** ** ts/utils.rs:8-36 [install_node_modules] *)
Definition install_node_modules (w : cworld) : cworld * res cerror unit :=
  then_ (try_exists (s2t "node_modules") w) (fun b w =>
  if b then (w, Ok tt) else
  then_ (then_ (try_exists (s2t "pnpm-lock.yaml") w) (fun pnpm w =>
         if pnpm then (w, Ok (Command (s2t "pnpm") [s2t "install"] [] (Some root)))
         else then_ (try_exists (s2t "yarn.lock") w) (fun yarn w =>
              if yarn then (w, Ok (Command (s2t "yarn") [] [] (Some root)))
              else (w, Ok (Command (s2t "npm") [s2t "install"] [] (Some root)))))) (fun c w =>
  then_ (output c w) (fun _ w => (w, Ok tt)))).

(** ** [RunLow::install_dependencies]: running.rs:33-35 *)
Definition install_nothing (w : cworld) : cworld * res cerror unit := (w, Ok tt).
(** php/mod.rs:525-535. *)
Definition install_php (w : cworld) : cworld * res cerror unit :=
  then_ (try_exists (s2t "vendor") w) (fun b w =>
  if b then (w, Ok tt) else then_ (output (Command (s2t "composer") [s2t "install"] [] (Some root)) w) (fun _ w => (w, Ok tt))).
(** foundry/mod.rs:396-401. *)
Definition install_foundry (w : cworld) : cworld * res cerror unit :=
  then_ (try_exists (s2t "package.json") w) (fun b w => if b then install_node_modules w else (w, Ok tt)).

(** ** running.rs:107-256 [RunAdapter]; the check of the test's output is in [M_Exec]. *)
Section Low.
Context (install : cworld -> cworld * res cerror unit) (b : run_low).
(** 112-126. *)
Definition low_dry_run (source : path) (w : cworld) : cworld * res cerror unit :=
  then_ (install w) (fun _ w =>
  then_ (lift (dry_run_command b args source) w) (fun c w =>
  then_ (output c w) (fun _ w => (w, Ok tt)))).
(** 143-153. *)
Definition low_build (source : path) (w : cworld) : cworld * res cerror unit :=
  then_ (lift (build_command b args source) w) (fun c w =>
  then_ (output c w) (fun _ w => (w, Ok tt))).
(** 155-256: [Ok None] is the error that makes a candidate nonbuildable. *)
Definition low_exec (test : text) (source : path) (w : cworld) : cworld * res cerror (option command) :=
  then_ (lift (exec_commands b args test source) w) (fun x w =>
    let '(build, run, _) := x in
    match output build w with
    | (w, Ok _) => (w, Ok (Some run))
    | (w, Err (CFailed _)) => (w, Ok None)
    | (w, Err e) => (w, Err e)
    | (w, Panic) => (w, Panic)
    end).
End Low.

(** ** TypeScript *)
(** [to_string_lossy] of an absolute path. *)
Definition full_path (p : path) : text := SLASH :: join_path p.
Section Ts.
Context (extract : list N -> option (list text)).          (* [it_message_extractor], [M_Ts] *)
(** ts/inner/mod.rs:92-116 [dry_run]: the entry for the file is made before the messages are extracted. *)
Definition inner_dry_run (source : path) (c : command) (w : cworld) : cworld * res cerror unit :=
  then_ (output c w) (fun stdout w =>
    match extract stdout with
    | Some messages => (CW (cw_ran w) (it_dry_run source messages (cw_known w)) (cw_warned w), Ok tt)
    | None => (CW (cw_ran w) (it_dry_run source [] (cw_known w)) (cw_warned w), Err CMessages)
    end).
(** ts/inner/mod.rs:129-172 [exec]. *)
Definition inner_exec (test : text) (source : path) (c : command) (w : cworld) : cworld * res cerror (option command) :=
  let '(m, warned, r) := it_exec denied source test (cw_known w) in
  (CW (cw_ran w) m (if warned then (source, test) :: cw_warned w else cw_warned w),
   match r with
   | Ok (Some _) => Ok (Some c)
   | Ok None => Ok None
   | Err _ => Err CDenied
   | Panic => Panic
   end).

(** hardhat/mod.rs:112-125 [compile]. *)
Definition hardhat_compile_command : command := Command (s2t "npx") ([s2t "hardhat"; s2t "compile"] ++ args) [] (Some root).
Definition hardhat_compile (w : cworld) : cworld * res cerror unit :=
  then_ (output hardhat_compile_command w) (fun _ w => (w, Ok tt)).
(** hardhat/mod.rs:47-50, 86-89. *)
Definition hardhat_test_command (source : path) : command :=
  Command (s2t "npx") ([s2t "hardhat"; s2t "test"; full_path source] ++ args) [] (Some root).
(** hardhat/mod.rs:41-53 [dry_run]. *)
Definition hardhat_dry_run (source : path) (w : cworld) : cworld * res cerror unit :=
  then_ (install_node_modules w) (fun _ w =>
  then_ (hardhat_compile w) (fun _ w =>
  inner_dry_run source (hardhat_test_command source) w)).
(** hardhat/mod.rs:69-71 [build_source_file]. *)
Definition hardhat_build (source : path) (w : cworld) : cworld * res cerror unit := hardhat_compile w.
(** hardhat/mod.rs:73-94 [exec]: any failure of [compile] makes the candidate nonbuildable. *)
Definition hardhat_exec (test : text) (source : path) (w : cworld) : cworld * res cerror (option command) :=
  match hardhat_compile w with
  | (w, Ok _) => inner_exec test source (hardhat_test_command source) w
  | (w, Err _) => (w, Ok None)
  | (w, Panic) => (w, Panic)
  end.

(** vitest/mod.rs:93-101 [command_to_run_test]; ts/vitest.rs:12. *)
Definition vitest_command (source : path) : command :=
  Command (s2t "npx") ([s2t "vitest"; s2t "run"; full_path source] ++ [s2t "--bail=1"; s2t "--reporter=json"] ++ args) [] (Some root).
(** vitest/mod.rs:41-47, 63-76, 78-90. *)
Definition vitest_dry_run (source : path) (w : cworld) : cworld * res cerror unit :=
  then_ (install_node_modules w) (fun _ w => inner_dry_run source (vitest_command source) w).
Definition vitest_build (source : path) (w : cworld) : cworld * res cerror unit :=
  then_ (output (vitest_command source) w) (fun _ w => (w, Ok tt)).
Definition vitest_exec (test : text) (source : path) (w : cworld) : cworld * res cerror (option command) :=
  inner_exec test source (vitest_command source) w.
End Ts.

(** ** A back end *)
Record adapter := Adapter {
  ad_dry_run : path -> cworld -> cworld * res cerror unit;
  ad_build : path -> cworld -> cworld * res cerror unit;
  ad_exec : text -> path -> cworld -> cworld * res cerror (option command)
}.
Definition low_adapter install b : adapter := Adapter (low_dry_run install b) (low_build b) (low_exec b).
Definition rust_adapter (flags : path -> option (list text)) : adapter := low_adapter install_nothing (rust_low flags).
Definition go_adapter : adapter := low_adapter install_nothing (go_low root).
Definition php_adapter : adapter := low_adapter install_php (php_low root).
Definition foundry_adapter : adapter := low_adapter install_foundry (foundry_low root).
Definition hardhat_adapter (extract : list N -> option (list text)) : adapter := Adapter (hardhat_dry_run extract) hardhat_build hardhat_exec.
Definition vitest_adapter (extract : list N -> option (list text)) : adapter := Adapter (vitest_dry_run extract) vitest_build vitest_exec.

(** core/src/core.rs:402, 820-834 [perform_exec]: the command is executed with the variable set. *)
Definition with_removal (id : text) (c : command) : command :=
  Command (c_program c) (c_args c) (c_env c ++ [(s2t "NECESSIST_REMOVAL", id)]) (c_dir c).
(** What the core asks of a back end, in any order. *)
Inductive request := RDry (source : path) | RBuild (source : path) | RExec (test : text) (source : path) (id : text).
Definition serve (a : adapter) (r : request) (w : cworld) : cworld :=
  match r with
  | RDry s => fst (ad_dry_run a s w)
  | RBuild s => fst (ad_build a s w)
  | RExec t s id =>
    match ad_exec a t s w with
    | (w, Ok (Some c)) => CW (with_removal id c :: cw_ran w) (cw_known w) (cw_warned w)
    | (w, _) => w
    end
  end.
Fixpoint serve_all (a : adapter) (rs : list request) (w : cworld) : cworld :=
  match rs with [] => w | r :: rs => serve_all a rs (serve a r w) end.
End Commands.
