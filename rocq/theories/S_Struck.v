(** Interrupting a run (for C92): what a Ctrl-C changes of the surroundings of a run. *)
From Verif Require Import Base M_Text M_Span M_Run S_Run M_Options M_Config M_Main.

(** The surroundings [x'] are those of [x] with a Ctrl-C at some moment. Until then the dry runs, builds and tests answer the same; from then
    on they may answer anything, as Ctrl-C reaches them, too. Nothing else differs. *)
Record interrupted (x x' : oracle) : Prop := {
  in_stays : arrives x';
  in_ctrlc : forall tr, o_ctrlc x' tr = false -> o_ctrlc x tr = false;
  in_dry_run : forall tr p, o_ctrlc x' tr = false -> o_dry_run x' tr p = o_dry_run x tr p;
  in_build : forall tr p, o_ctrlc x' tr = false -> o_build x' tr p = o_build x tr p;
  in_exec : forall tr t s, o_ctrlc x' tr = false -> o_exec x' tr t s = o_exec x tr t s;
  in_perform : forall tr t s, o_ctrlc x' tr = false -> o_perform x' tr t s = o_perform x tr t s;
  in_denied : forall w, o_denied x' w = o_denied x w;
  in_backup : forall tr p, o_backup_ok x' tr p = o_backup_ok x tr p;
  in_extra : forall tr p n, o_extra x' tr p n = o_extra x tr p n;
  in_guard : o_guard x' = o_guard x;
  in_write : forall tr p, o_write x' tr p = o_write x tr p;
  in_db : forall tr, o_db_ok x' tr = o_db_ok x tr
}.

(** Recording a removal, in the database or on the console. *)
Definition records (e : event) : Prop := match e with EInsert _ | EConsole _ => True | _ => False end.

(** [short] is the trace of a run interrupted at some moment until which it did what the run with the trace [long] did; what it did after that
    recorded nothing. *)
Definition struck (x' : oracle) (long short : trace) : Prop :=
  exists before after, moment before long /\ short = after ++ before /\ o_ctrlc x' before = true /\ forall e, In e after -> ~ records e.

(** After the moment, at most one candidate's tests are run. *)
Definition struck_once (x' : oracle) (long short : trace) : Prop :=
  exists before after, moment before long /\ short = after ++ before /\ o_ctrlc x' before = true /\ (forall e, In e after -> ~ records e) /\
    (forall s1 t1 f1 s2 t2 f2, In (EExec s1 t1 f1) after -> In (EExec s2 t2 f2) after -> s1 = s2).

(** The same setting, but for what happens during the run. *)
Definition with_oracle (x : oracle) (g : setting) : setting :=
  Setting (g_env g) (g_home g) (g_sys g) (g_skill_path g) (g_root g) (g_lock g) (g_config_stat g) (g_config_read g) (g_config_write g) (g_toml g)
    (g_exists g) (g_construct g) (g_canon g) (g_parse g) (g_sql g) (g_file_exists g) (g_handler g) x (g_url g).
