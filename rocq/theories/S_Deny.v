(** Denying more warnings (for C89): what it may change of the surroundings of a run, and what "the same until something was denied" means. *)
From Verif Require Import Base M_Text M_Span M_Run S_Run M_Output M_Sqlite M_Options M_Config M_Main.

(** The same surroundings, except that more warnings are denied.  Besides the warnings of the run itself, the back ends warn when a
    command is made or when the output of a test is looked at; where the one gives an answer, the other may report an error. *)
Record stricter (x x' : oracle) : Prop := {
  st_dry_run : forall tr p, o_dry_run x' tr p = o_dry_run x tr p;
  st_ctrlc : forall tr, o_ctrlc x' tr = o_ctrlc x tr;
  st_denied : forall w, o_denied x w = true -> o_denied x' w = true;
  st_backup : forall tr p, o_backup_ok x' tr p = o_backup_ok x tr p;
  st_extra : forall tr p n, o_extra x' tr p n = o_extra x tr p n;
  st_guard : o_guard x' = o_guard x;
  st_write : forall tr p, o_write x' tr p = o_write x tr p;
  st_build : forall tr p, o_build x' tr p = o_build x tr p;
  st_exec : forall tr t s, o_exec x' tr t s = o_exec x tr t s \/ o_exec x' tr t s = Err tt;
  st_perform : forall tr t s, o_perform x' tr t s = o_perform x tr t s \/ o_perform x' tr t s = Err tt;
  st_db : forall tr, o_db_ok x' tr = o_db_ok x tr
}.

(** Rows are only added. *)
Definition rows_before (d d' : option (list removal)) : Prop :=
  match d, d' with None, None => True | Some r, Some r' => exists l, r' = r ++ l | _, _ => False end.

(** The trace [short] is that of a run that did what the run with the trace [long] did up to some moment, and then did nothing
    but put files back. *)
Definition stopped_early (long short : trace) : Prop :=
  exists before restored, moment before long /\ short = map ERestore restored ++ before.

(** The same options, except for what is denied; and every warning that the one denies, the other denies. *)
Definition with_denials (l : list warning) (o : options) : options :=
  Options (op_allow o) (op_check_skill o) (op_default_config o) l (op_dump o) (op_dump_candidate_counts o) (op_dump_candidates o)
    (op_find_skill o) (op_no_lines_or_columns o) (op_no_local_functions o) (op_no_sqlite o) (op_quiet o) (op_reset o) (op_resume o)
    (op_root o) (op_timeout o) (op_verbose o) (op_write o) (op_source_files o) (op_args o).
Definition denies (l : list warning) (w : warning) : Prop := In WAll l \/ In w l.
Definition denies_more (l l' : list warning) : Prop := forall w, denies l w -> denies l' w.

(** The same setting, except for the back end's parsing and what happens during the run. *)
Definition with_backend (parse : framework -> toml -> list path -> (path -> text) -> res unit (nat * list (path * span_test_maps))) (x : oracle)
  (g : setting) : setting :=
  Setting (g_env g) (g_home g) (g_sys g) (g_skill_path g) (g_root g) (g_lock g) (g_config_stat g) (g_config_read g) (g_config_write g) (g_toml g)
    (g_exists g) (g_construct g) (g_canon g) parse (g_sql g) (g_file_exists g) (g_handler g) x (g_url g).

(** Rows in the database of a disk. *)
Definition has_rows (k : disk) (rows : list row) : Prop := k_db k = Some (Some rows).
