(** Model of a whole invocation: necessist/src/main.rs:16-32 [main], core/src/core.rs:120-208 [necessist], 212-308
    [prepare], 310-315 (the beginning of [run]), 506-546 [lock_root], [default_config], [dump], 916-966 (opening the
    database), core/src/config.rs:77-96 [Toml::read].  It composes the models of the parts. *)
From Verif Require Import Base M_Text M_Rewriter M_Span M_Run M_Output M_Sqlite M_Options M_Config.
From Verif Require M_Skill.
Local Open Scope N_scope.

(** What an invocation can leave changed: the source files (by their path below the root), necessist.toml and
    necessist.db in the root, and the skill files, which are elsewhere. *)
Record disk := Disk {
  k_src : path -> text;
  k_config : option text;
  k_db : db_file;
  k_skill : M_Skill.files
}.
Definition with_src x k := Disk x (k_config k) (k_db k) (k_skill k).
Definition with_config x k := Disk (k_src k) x (k_db k) (k_skill k).
Definition with_db x k := Disk (k_src k) (k_config k) x (k_skill k).
Definition with_skill x k := Disk (k_src k) (k_config k) (k_db k) x.

(** The surroundings of an invocation. *)
Record setting := Setting {
  g_env : env;                                     (* see [M_Output] *)
  g_home : option path;                            (* the home directory *)
  g_sys : M_Skill.sys;
  g_skill_path : upath -> path;                    (* the argument of --check-skill, below the current directory *)
  g_root : option upath -> option path;            (* the root, if it can be determined (core.rs:136-143) *)
  g_lock : path -> bool;                           (* the lock on the root is obtained (core.rs:145-146) *)
  g_config_stat : bool; g_config_read : bool;      (* try_exists and read_to_string work for necessist.toml *)
  g_config_write : option (option text);           (* None: write works.  Some x: it fails, leaving [x] *)
  g_toml : text -> option toml;                    (* [toml::from_str], and there are no unknown keys (config.rs:84-93) *)
  g_exists : exists_oracle;                        (* see [M_Options] *)
  g_construct : framework -> bool;                 (* the back end can be set up (only Anchor's may fail) *)
  g_canon : path -> option path;                   (* [dunce::canonicalize] *)
  g_parse : framework -> toml -> list path -> (path -> text) -> res unit (nat * list (path * span_test_maps));
                                                   (* [backend.parse]; [M_Parsing.parse] is an instance *)
  g_sql : sql; g_file_exists : path -> bool;       (* see [M_Sqlite] *)
  g_handler : bool;                                (* [ctrlc::set_handler] works *)
  g_oracle : oracle;                               (* what happens during the run, see [M_Run] *)
  g_url : span -> text                             (* the [url] column (sqlite.rs:186-212) *)
}.

(** Result of an invocation: the states the disk went through after the initial one (without the temporary changes to
    source files during the run, which are in the trace), the trace of the run, what was dumped, and the
    end: [Ok true] is [ExitCode::SUCCESS], [Ok false] is [ExitCode::FAILURE]. *)
Record answer := Answer { a_states : list disk; a_trace : trace; a_out : option (list out); a_end : res unit bool }.
Definition done (r : res unit bool) : answer := Answer [] [] (Some []) r.

Section Main.
Context {V : Type} (yaml : text -> option M_Skill.header) (semver : text -> option V) (vcmp : V -> V -> comparison)
        (vshow : V -> text) (pshow : path -> text) (builtin_skill : text) (builtin_version : V).   (* see [M_Skill] *)
Context (hash16 : text -> text) (default_toml : text).   (* [toml::to_string(&config::Toml::default())] *)
Context (g : setting).

Definition print_opts_of (o : options) : print_opts :=
  PrintOpts (op_allow o) (op_deny o) (op_quiet o) (op_verbose o) (op_no_lines_or_columns o).

(** core/src/warn.rs:115-117. *)
Definition denied (o : options) (w : warning) : bool := has_warning WAll (op_deny o) || has_warning w (op_deny o).
Definition denied_in_run (o : options) (w : run_warning) : bool :=
  denied o match w with DryRunFailed => WDryRunFailed | FilesChanged => WFilesChanged
                   | InstrumentationNonbuildable => WInstrumentationNonbuildable end.
Definition oracle_of (o : options) : oracle :=
  let x := g_oracle g in
  Oracle (o_dry_run x) (o_ctrlc x) (denied_in_run o) (o_backup_ok x) (o_extra x) (o_guard x) (o_write x) (o_build x)
    (o_exec x) (o_perform x) (o_db_ok x).

(** core/src/core.rs:521-534 [default_config]. *)
Definition write_default_config (k : disk) : list disk * res unit unit :=
  if negb (g_config_stat g) then ([], Err tt)
  else match k_config k with
       | Some _ => ([], Err tt)
       | None => match g_config_write g with
                 | None => ([with_config (Some default_toml) k], Ok tt)
                 | Some x => ([with_config x k], Err tt)
                 end
       end.

(** core/src/config.rs:77-96 [Toml::read]. *)
Definition read_config (k : disk) : res unit toml :=
  if negb (g_config_stat g) then Err tt
  else match k_config k with
       | None => Ok toml_default
       | Some t => if negb (g_config_read g) then Err tt
                   else match g_toml g t with Some c => Ok c | None => Err tt end
       end.

(** core/src/core.rs:916-966 without --no-sqlite. *)
Definition open_db (o : options) (k : disk) : list disk * res unit (list removal) :=
  let '(states, r) := init (g_sql g) (g_file_exists g) (denied o WDatabaseDoesNotExist) (op_dump o) (op_reset o) (op_resume o) (k_db k) in
  (map (fun d => with_db d k) (tl states), match r with Ok rs => Ok rs | Err _ => Err tt | Panic => Panic end).

(** The disk after the database was opened. *)
Definition last_disk (states : list disk) (k : disk) : disk := last states k.

Definition to_row (r : removal) : row := Row (display_span (rm_span r)) (rm_text r) (outcome_name (rm_outcome r)) (g_url g (rm_span r)).

(** core/src/core.rs:310-433 [run]. *)
Definition main_run (o : options) (files : list (path * span_test_maps)) (k : disk) : answer :=
  if negb (g_handler g) then done (Err tt)
  else if op_no_sqlite o then
    let '(w, r) := run_from hash16 (k_src k) (oracle_of o) files (k_src k) None in
    Answer [with_src (w_fs w) k] (w_trace w) (Some []) (match r with Ok _ => Ok true | Err _ => Err tt | Panic => Panic end)
  else
    let '(states, r) := open_db o k in
    match r with
    | Err e => Answer states [] (Some []) (Err e)
    | Panic => Answer states [] (Some []) Panic
    | Ok past =>
      let k := last_disk states k in
      let '(w, r) := run_from hash16 (k_src k) (oracle_of o) files (k_src k) (Some past) in
      let old := match k_db k with Some (Some rows) => rows | _ => [] end in
      let new := match w_db w with Some rows => map to_row (skipn (length past) rows) | None => [] end in
      Answer (states ++ [with_db (Some (Some (old ++ new))) (with_src (w_fs w) k)]) (w_trace w) (Some [])
             (match r with Ok _ => Ok true | Err _ => Err tt | Panic => Panic end)
    end.

(** core/src/core.rs:212-308 [prepare], then [run] unless nothing is left to do (171-207). *)
Definition prepare_and_run (o : options) (sel : option framework) (root : path) (k : disk) : answer :=
  let x := light_context (print_opts_of o) in
  if op_default_config o then
    let '(states, r) := write_default_config k in
    Answer states [] (Some []) (match r with Ok _ => Ok true | Err e => Err e | Panic => Panic end)
  else
    match read_config k with
    | Err e => done (Err e)
    | Panic => done Panic
    | Ok config =>
      if op_dump o then
        let '(states, r) := if op_no_sqlite o then ([], Ok []) else open_db o k in
        match r with
        | Err e => Answer states [] (Some []) (Err e)
        | Panic => Answer states [] (Some []) Panic
        | Ok past => let l := dump (g_env g) x (sort_removals past) in
                     Answer states [] l (match l with Some _ => Ok true | None => Panic end)
        end
      else
        match choose_framework (g_exists g) sel with
        | Err _ => done (Err tt)
        | Panic => done Panic
        | Ok f =>
          if negb (g_construct g f) then done (Err tt) else
          match canonicalize_source_files (g_canon g) root (op_source_files o) with
          | Err _ => done (Err tt)
          | Panic => done Panic
          | Ok paths =>
            match g_parse g f config paths (k_src k) with
            | Err e => done (Err e)
            | Panic => done Panic
            | Ok (n_tests, files) =>
              if op_dump_candidates o then
                let '(l, r) := dump_candidates (g_env g) x (k_src k) files in
                Answer [] [] l (match l, r with
                                | None, _ => Panic | _, Panic => Panic | _, Err _ => Err tt | Some _, Ok _ => Ok true
                                end)
              else if op_dump_candidate_counts o then
                let l := dump_candidate_counts (g_env g) x files in
                Answer [] [] l (match l with Some _ => Ok true | None => Panic end)
              else main_run o files k
            end
          end
        end
    end.

(** core/src/core.rs:120-208 [necessist]. *)
Definition necessist (o : options) (sel : option framework) (k : disk) : answer :=
  match process_options o with
  | Err _ => done (Err tt)
  | Panic => done Panic
  | Ok _ =>
    match op_check_skill o with
    | Some p =>                                                                        (* 128-130 *)
      let '(f, _, _, r) := M_Skill.check yaml semver vcmp vshow pshow builtin_skill builtin_version (g_sys g) (k_skill k) (g_home g) (g_skill_path g p) (op_write o) in
      Answer [with_skill f k] [] (Some [])
        (match r with Ok st => Ok (M_Skill.exit_success st) | Err _ => Err tt | Panic => Panic end)
    | None =>
      if op_find_skill o then                                                          (* 132-134 *)
        let '(f, _, r) := M_Skill.find yaml semver vcmp vshow pshow builtin_skill builtin_version (g_sys g) (k_skill k) (g_home g) (op_write o) in
        Answer [with_skill f k] [] (Some [])
          (match r with Ok st => Ok (M_Skill.exit_success st) | Err _ => Err tt | Panic => Panic end)
      else
        match g_root g (op_root o) with
        | None => done (Err tt)
        | Some root =>
          if negb (g_lock g root) then done (Err tt)
          else if op_no_local_functions o && denied o WOptionDeprecated then done (Err tt)  (* 162-169 *)
          else prepare_and_run o sel root k
        end
    end
  end.

(** necessist/src/main.rs:16-32; 101 is Rust's exit code after a panic. *)
Definition exit_code (a : answer) : N :=
  match a_end a with Ok true => 0 | Ok false => 1 | Err _ => 2 | Panic => 101 end.
Definition final (k : disk) (a : answer) : disk := last (a_states a) k.
End Main.
