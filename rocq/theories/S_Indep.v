(** Specification for C83: what it means that two command lines, and two histories of a run, differ only in what concerns the output or the database. *)
From Verif Require Import Base M_Text M_Rewriter M_Span M_Instr M_Run S_Run M_Options.
From Coq Require Import List.
Local Open Scope list_scope.

(** Everything but --allow, --no-lines-or-columns, --quiet and --verbose is the same. *)
Definition same_but_output (o o' : options) : Prop :=
  op_check_skill o = op_check_skill o' /\ op_default_config o = op_default_config o' /\ op_deny o = op_deny o' /\ op_dump o = op_dump o' /\
  op_dump_candidate_counts o = op_dump_candidate_counts o' /\ op_dump_candidates o = op_dump_candidates o' /\ op_find_skill o = op_find_skill o' /\
  op_no_local_functions o = op_no_local_functions o' /\ op_no_sqlite o = op_no_sqlite o' /\ op_reset o = op_reset o' /\ op_resume o = op_resume o' /\
  op_root o = op_root o' /\ op_timeout o = op_timeout o' /\ op_write o = op_write o' /\ op_source_files o = op_source_files o' /\ op_args o = op_args o'.
(** Everything but --no-sqlite and the options on the output is the same. *)
Definition same_but_database (o o' : options) : Prop :=
  op_check_skill o = op_check_skill o' /\ op_default_config o = op_default_config o' /\ op_deny o = op_deny o' /\ op_dump o = op_dump o' /\
  op_dump_candidate_counts o = op_dump_candidate_counts o' /\ op_dump_candidates o = op_dump_candidates o' /\ op_find_skill o = op_find_skill o' /\
  op_no_local_functions o = op_no_local_functions o' /\ op_reset o = op_reset o' /\ op_resume o = op_resume o' /\
  op_root o = op_root o' /\ op_timeout o = op_timeout o' /\ op_write o = op_write o' /\ op_source_files o = op_source_files o' /\ op_args o = op_args o'.

(** The insertions are left out of a history. *)
Definition is_insert (e : event) : bool := match e with EInsert _ => true | _ => false end.
Definition unstored (tr : trace) : trace := filter (fun e => negb (is_insert e)) tr.
(** What the tests, the back end, the disk and the keyboard do does not depend on what was stored. *)
Record database_blind (o : oracle) : Prop := Blind {
  bl_dry : forall tr p, o_dry_run o (unstored tr) p = o_dry_run o tr p;
  bl_ctrlc : forall tr, o_ctrlc o (unstored tr) = o_ctrlc o tr;
  bl_backup : forall tr p, o_backup_ok o (unstored tr) p = o_backup_ok o tr p;
  bl_extra : forall tr p n, o_extra o (unstored tr) p n = o_extra o tr p n;
  bl_write : forall tr p, o_write o (unstored tr) p = o_write o tr p;
  bl_build : forall tr p, o_build o (unstored tr) p = o_build o tr p;
  bl_exec : forall tr t s, o_exec o (unstored tr) t s = o_exec o tr t s;
  bl_perform : forall tr t s, o_perform o (unstored tr) t s = o_perform o tr t s
}.
