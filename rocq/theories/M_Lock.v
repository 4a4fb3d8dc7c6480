(** Model of the lock on the root: core/src/core.rs:145-146 (taken before anything under the root is looked at, kept
    until the process ends), [lock_root] 506-519, core/src/flock.rs:8-31, 38-59; as a transition system of any number of
    invocations started, scheduled and killed in any order.

    The lock table is the kernel's (flock(2)): one exclusive holder per directory, released when the
    holder's descriptor goes away.  The feature [lock_root] is on by default (core/Cargo.toml). *)
From Verif Require Import Base M_Run.

Definition pid := nat.
(** What is locked is the root directory itself (flock.rs:29), identified by its inode. *)
Definition inode := nat.

Inductive pstate := Idle | Blocked | Running | Gone.

Record lsys := LSys { ps : pid -> pstate; table : inode -> option pid }.

Definition upd {A} (f : nat -> A) (k : nat) (v : A) : nat -> A := fun x => if Nat.eqb k x then v else f x.

Section Lock.
Context (root_of : pid -> inode) (blocking : pid -> bool).   (* [blocking]: TRYCMD is set and not "0" (core.rs:516-519) *)

Definition linit : lsys := LSys (fun _ => Idle) (fun _ => None).

(** One step; the label is a file touched under the root (read, written, or a test run on it). *)
Inductive step : lsys -> option (pid * path) -> lsys -> Prop :=
| s_acquire s p :           (* try_lock_exclusive or lock_exclusive, and nobody has it *)
    (ps s p = Idle \/ ps s p = Blocked) -> table s (root_of p) = None ->
    step s None (LSys (upd (ps s) p Running) (upd (table s) (root_of p) (Some p)))
| s_refused s p q :         (* LOCK_NB, and somebody has it: the error of core.rs:512 ends the process *)
    ps s p = Idle -> blocking p = false -> table s (root_of p) = Some q ->
    step s None (LSys (upd (ps s) p Gone) (table s))
| s_wait s p q :            (* without LOCK_NB: wait *)
    ps s p = Idle -> blocking p = true -> table s (root_of p) = Some q ->
    step s None (LSys (upd (ps s) p Blocked) (table s))
| s_touch s p f :           (* everything after core.rs:146 *)
    ps s p = Running -> step s (Some (p, f)) s
| s_end s p :               (* return, error, panic, or kill: the kernel drops the process's lock *)
    ps s p <> Gone ->
    step s None (LSys (upd (ps s) p Gone)
                      (match table s (root_of p) with
                       | Some q => if Nat.eqb q p then upd (table s) (root_of p) None else table s
                       | None => table s
                       end)).

(** Schedules. *)
Inductive exec : lsys -> list (pid * path) -> lsys -> Prop :=
| e_nil s : exec s [] s
| e_silent s tr s1 s2 : exec s tr s1 -> step s1 None s2 -> exec s tr s2
| e_touch s tr s1 e s2 : exec s tr s1 -> step s1 (Some e) s2 -> exec s (tr ++ [e]) s2.
End Lock.
