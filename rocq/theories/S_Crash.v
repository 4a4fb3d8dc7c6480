(** Vocabulary for C72: what is on disk when a run dies without a chance to clean up (SIGKILL, power loss). *)
From Verif Require Import Base M_Text M_Span M_Run S_Run.

(** The disk and the saved copies. *)
Definition copies := path -> option text.
Definition save (p : path) (t : option text) (c : copies) : copies := fun q => if path_eqb p q then t else c q.

(** What may be on disk after the events of a trace (newest first), when the run began on the disk [fs0]. A write may
    leave anything in the file it writes; making a backup copies the file; dropping it copies it back. *)
Inductive disk_after (fs0 : path -> text) : trace -> (path -> text) -> copies -> Prop :=
| da_start : disk_after fs0 [] fs0 (fun _ => None)
| da_backup p tr f c : disk_after fs0 tr f c -> disk_after fs0 (EBackup p :: tr) f (save p (Some (f p)) c)
| da_write p tr f c t : disk_after fs0 tr f c -> disk_after fs0 (EWrite p :: tr) (put_file p t f) c
| da_restore p tr f c t : disk_after fs0 tr f c -> c p = Some t -> disk_after fs0 (ERestore p :: tr) (put_file p t f) (save p None c)
| da_other e tr f c : disk_after fs0 tr f c -> (forall p, e <> EBackup p /\ e <> EWrite p /\ e <> ERestore p) -> disk_after fs0 (e :: tr) f c.

(** The run, whose whole trace would have been [whole], dies: between two events, or while a file is being written or
    restored. *)
Inductive dies (fs0 : path -> text) (whole : trace) : (path -> text) -> copies -> Prop :=
| di_between tr f c : moment tr whole -> disk_after fs0 tr f c -> dies fs0 whole f c
| di_writing p tr f c junk : moment (EWrite p :: tr) whole -> disk_after fs0 tr f c -> dies fs0 whole (put_file p junk f) c
| di_restoring p tr f c junk : moment (ERestore p :: tr) whole -> disk_after fs0 tr f c -> dies fs0 whole (put_file p junk f) c.

(** The disk an event tells of. *)
Definition disk_of (e : event) : option (path -> text) :=
  match e with EDryRun _ f | EBuild _ f | EExec _ _ f | ERun _ _ _ f => Some f | _ => None end.
