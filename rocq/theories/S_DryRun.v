(** Vocabulary for C81: what an event of a run is about, and a file's dry run. *)
From Verif Require Import Base M_Text M_Span M_Run S_Run.
From Coq Require Import List.
Local Open Scope list_scope.

(** The event interferes with the file [p], is a build or test of a change of it, or reports what came of it. *)
Definition concerns (e : event) (p : path) : Prop :=
  match e with
  | EBackup q | EWrite q | EBuild q _ => q = p
  | EExec s _ _ | ERun s _ _ _ => sp_path s = p
  | EConsole r => sp_path (rm_span r) = p
  | _ => False
  end.
Definition is_dry_run (e : event) : Prop := match e with EDryRun _ _ => True | _ => False end.
(** The files dry run, the latest first. *)
Fixpoint dry_runs (tr : trace) : list path :=
  match tr with
  | EDryRun p _ :: r => p :: dry_runs r
  | _ :: r => dry_runs r
  | [] => []
  end.
(** The latest dry run before is that of [p]; it began with the disk [fs], and succeeded, and then there was no Ctrl-C. *)
Definition tried (o : oracle) (pre : trace) (p : path) (fs : path -> text) : Prop :=
  exists later before, pre = later ++ EPoll :: EDryRun p fs :: before /\ (forall e, In e later -> ~ is_dry_run e) /\
    o_dry_run o (EDryRun p fs :: before) p = Ok tt.
