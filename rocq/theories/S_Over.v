(** When an invocation starts over (for C90): there is nothing in the database that it takes up. *)
From Verif Require Import Base M_Text M_Span M_Run M_Output M_Sqlite M_Options M_Main P_Options.

(** The database file is missing, and this is not to be an error; or its table is to be emptied; or its table is empty and is to be
    continued. *)
Inductive starts_over (o : options) (k : disk) : Prop :=
| over_missing : k_db k = None -> (given o reset \/ given o resume -> M_Main.denied o WDatabaseDoesNotExist = false) -> starts_over o k
| over_reset rows : k_db k = Some (Some rows) -> given o reset -> starts_over o k
| over_nothing : k_db k = Some (Some []) -> given o resume -> starts_over o k.

(** The same options, except for those about the rows that there are. *)
Definition same_but_old_rows (o o' : options) : Prop :=
  op_allow o' = op_allow o /\ op_check_skill o' = op_check_skill o /\ op_default_config o' = op_default_config o /\ op_deny o' = op_deny o /\
  op_dump o' = op_dump o /\ op_dump_candidate_counts o' = op_dump_candidate_counts o /\ op_dump_candidates o' = op_dump_candidates o /\
  op_find_skill o' = op_find_skill o /\ op_no_lines_or_columns o' = op_no_lines_or_columns o /\ op_no_local_functions o' = op_no_local_functions o /\
  op_no_sqlite o' = op_no_sqlite o /\ op_quiet o' = op_quiet o /\ op_root o' = op_root o /\ op_timeout o' = op_timeout o /\
  op_verbose o' = op_verbose o /\ op_write o' = op_write o /\ op_source_files o' = op_source_files o /\ op_args o' = op_args o.

(** The disks are the same, except for the database. *)
Definition same_but_rows (k k' : disk) : Prop := k_src k' = k_src k /\ k_config k' = k_config k /\ k_skill k' = k_skill k.
