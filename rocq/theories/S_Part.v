(** Specification for C84: what of a run concerns some of the source files, and surroundings that treat every source file on its own. *)
From Verif Require Import Base M_Text M_Rewriter M_Span M_Instr M_Run S_Run.
From Verif Require M_Options.
From Coq Require Import List.
Local Open Scope list_scope.

(** The source file that something that happens is about. *)
Definition about_file (e : event) : option path :=
  match e with
  | EDryRun p _ | EBuild p _ | EWrite p | EBackup p | ERestore p => Some p
  | EExec s _ _ | ERun s _ _ _ => Some (sp_path s)
  | EInsert r | EConsole r => Some (sp_path (rm_span r))
  | _ => None
  end.
(** The same with, of the disk, only this source file. *)
Definition alone (e : event) : event :=
  match e with
  | EDryRun p fs => EDryRun p (fun _ => fs p)
  | EBuild p fs => EBuild p (fun _ => fs p)
  | EExec s t fs => EExec s t (fun _ => fs (sp_path s))
  | ERun s t env fs => ERun s t env (fun _ => fs (sp_path s))
  | _ => e
  end.
Definition concerns (Q : path -> bool) (e : event) : bool := match about_file e with Some p => Q p | None => false end.
(** What has happened with the source files that satisfy [Q]. *)
Definition share (Q : path -> bool) (tr : trace) : trace := map alone (filter (concerns Q) tr).
(** Each source file is treated on its own: what the back end, the tests and the disk do with it depends on what has happened with this
    source file and on nothing else. *)
Record each_on_its_own (o : oracle) : Prop := Own {
  ow_dry : forall tr p, o_dry_run o tr p = o_dry_run o (share (path_eqb p) tr) p;
  ow_backup : forall tr p, o_backup_ok o tr p = o_backup_ok o (share (path_eqb p) tr) p;
  ow_extra : forall tr p n, o_extra o tr p n = o_extra o (share (path_eqb p) tr) p n;
  ow_write : forall tr p, o_write o tr p = o_write o (share (path_eqb p) tr) p;
  ow_build : forall tr p, o_build o tr p = o_build o (share (path_eqb p) tr) p;
  ow_exec : forall tr t s, o_exec o tr t s = o_exec o (share (path_eqb (sp_path s)) tr) t s;
  ow_perform : forall tr t s, o_perform o tr t s = o_perform o (share (path_eqb (sp_path s)) tr) t s
}.
(** Nobody presses Ctrl-C, and the database works. *)
Definition undisturbed (o : oracle) : Prop := (forall tr, o_ctrlc o tr = false) /\ (forall tr, o_db_ok o tr = true).
(** The files that satisfy [Q]. *)
Definition only (Q : path -> bool) (files : list (path * span_test_maps)) : list (path * span_test_maps) := filter (fun f => Q (fst f)) files.
Definition removals_of (Q : path -> bool) (rs : list removal) : list removal := filter (fun r => Q (sp_path (rm_span r))) rs.
(** Everything but the source files named is the same. *)
Definition same_but_files (o o' : M_Options.options) : Prop :=
  o' = M_Options.Options (M_Options.op_allow o) (M_Options.op_check_skill o) (M_Options.op_default_config o) (M_Options.op_deny o) (M_Options.op_dump o)
    (M_Options.op_dump_candidate_counts o) (M_Options.op_dump_candidates o) (M_Options.op_find_skill o) (M_Options.op_no_lines_or_columns o)
    (M_Options.op_no_local_functions o) (M_Options.op_no_sqlite o) (M_Options.op_quiet o) (M_Options.op_reset o) (M_Options.op_resume o) (M_Options.op_root o)
    (M_Options.op_timeout o) (M_Options.op_verbose o) (M_Options.op_write o) (M_Options.op_source_files o') (M_Options.op_args o).
