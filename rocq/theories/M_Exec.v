(** Model of one execution of a test: core/src/core.rs:820-869 [perform_exec], 968-1001 [rlimit],
    1003-1009 [timeout], 1011-1037 [transitive_kill]; backends/src/running.rs:155-256 (the output
    check made after a test has ended); backends/src/ts/inner/mod.rs:48-54, 92-116, 129-172 (the table of
    [it] messages of the TypeScript back ends). *)
From Verif Require Import Base M_Text M_Span M_Run.
Local Open Scope N_scope.

Definition pid := N.

(** How a process ends. *)
Inductive status := Exited (code : N) | Signaled (sig : N).
(** [ExitStatus::success] (crate [subprocess]). *)
Definition success (s : status) : bool := match s with Exited c => c =? 0 | Signaled _ => false end.

(** core/src/core.rs:36, 1003-1009 [timeout], in nanoseconds. *)
Definition nanos (secs : N) : N := secs * 1000000000.
Definition timeout (opt : option N) : option N :=
  match opt with
  | None => Some (nanos 60)
  | Some s => if s =? 0 then None else Some (nanos s)
  end.

(** Limits on the number of processes: soft and hard. *)
Record limits := Limits { soft : N; hard : N }.

Inductive exec_event :=
| XLimit (l : limits)     (* limits changed *)
| XStart                  (* process started *)
| XWaited                 (* process found to have ended, and reaped *)
| XKill (p : pid)         (* [kill] run on a process *)
| XJudge.                 (* postprocessing begins *)

Inductive exec_error := RlimitFailed | StartFailed | WaitFailed | ChildrenFailed | PostFailed.

(** core/src/core.rs:1011-1037 [transitive_kill].  [children] is [child_processes] with its
    output parsed; the process tree does not change while it is walked.  The loop has no bound
    of its own, so [fuel] bounds it here; [None]: not finished. *)
Section Kill.
Context (children : pid -> res exec_error (list pid)).
Fixpoint kill_loop (fuel : nat) (stack : list (pid * bool)) (killed : list pid)
  : option (list pid * res exec_error unit) :=
  match fuel with
  | O => None
  | S f =>
    match stack with
    | [] => Some (rev killed, Ok tt)
    | (p, true) :: rest => kill_loop f rest (p :: killed)
    | (p, false) :: rest =>
      match children p with
      | Ok cs => kill_loop f (map (fun c => (c, false)) (rev cs) ++ (p, true) :: rest) killed
      | Err e => Some (rev killed, Err e)
      | Panic => Some (rev killed, Panic)
      end
    end
  end.
Definition transitive_kill (fuel : nat) (p : pid) := kill_loop fuel [(p, false)] [].
End Kill.

(** What the operating system does during one [perform_exec]. *)
Record os := OS {
  os_nproc : option N;         (* threads counted by NPROC_INIT; None: counting failed (unwrap) *)
  os_getrlimit : bool * bool;  (* first and second call succeed *)
  os_setrlimit : bool * bool;
  os_start : bool;
  os_life : option N;          (* nanoseconds until the process ends by itself; None: never *)
  os_status : status;          (* how it then ends *)
  os_wait : bool * bool;       (* first and second wait succeed *)
  os_pid : pid;
  os_children : pid -> res exec_error (list pid);
  os_kill_fuel : nat           (* time the kill loop is given *)
}.

Definition NPROC_ALLOWANCE : N := 1024.

(** core/src/core.rs:992-999 [set_soft_rlimit]: returns the previous soft limit. *)
Definition set_soft_rlimit (get set : bool) (limit : N) (l : limits) : res exec_error (N * limits) :=
  if get then
    if set then Ok (soft l, Limits (N.min (hard l) limit) (hard l)) else Err RlimitFailed
  else Err RlimitFailed.

(** Does the process end in time?  ([wait_timeout] gives [None] if not.) *)
Definition ends_within (o : os) (t : option N) : bool :=
  match t, os_life o with
  | None, _ => true             (* waits for ever; see the remark at [perform_exec] *)
  | Some d, Some life => life <=? d
  | Some _, None => false
  end.

(** core/src/core.rs:820-869 [perform_exec].  [post] is the back end's postprocessing, asked only when the
    process ended in time.  Result: limits, events (newest first), outcome; [None] if it
    never returns ([wait] without timeout on a process that never ends, or a kill loop that
    does not end). *)
Definition perform_exec (opt_timeout : option N) (post : option (res exec_error bool)) (o : os) (l : limits)
  : option (limits * list exec_event * res exec_error exec_result) :=
  match os_nproc o with
  | None => Some (l, [], Panic)
  | Some n =>
  match set_soft_rlimit (fst (os_getrlimit o)) (fst (os_setrlimit o)) (n + NPROC_ALLOWANCE) l with
  | Err e => Some (l, [], Err e)
  | Panic => Some (l, [], Panic)
  | Ok (prev, l1) =>
    let tr := [XLimit l1] in
    if negb (os_start o) then Some (l1, tr, Err StartFailed) else
    let tr := XStart :: tr in
    let t := timeout opt_timeout in
    if (match t, os_life o with None, None => true | _, _ => false end) then None else
    if negb (fst (os_wait o)) then Some (l1, tr, Err WaitFailed) else
    let ended := ends_within o t in
    let tr := if ended then XWaited :: tr else tr in
    match set_soft_rlimit (snd (os_getrlimit o)) (snd (os_setrlimit o)) prev l1 with
    | Err e => Some (l1, tr, Err e)
    | Panic => Some (l1, tr, Panic)
    | Ok (_, l2) =>
      let tr := XLimit l2 :: tr in
      if ended then
        let judged := Some (l2, match post with Some _ => XJudge :: tr | None => tr end,
                            Ok (if success (os_status o) then XPassed else XFailed)) in
        match post with
        | None => judged
        | Some (Ok true) => judged
        | Some (Ok false) => Some (l2, XJudge :: tr, Ok XNone)
        | Some (Err e) => Some (l2, XJudge :: tr, Err e)
        | Some Panic => Some (l2, XJudge :: tr, Panic)
        end
      else
        match transitive_kill (os_children o) (os_kill_fuel o) (os_pid o) with
        | None => None
        | Some (killed, r) =>
          let tr := rev (map XKill killed) ++ tr in
          match r with
          | Err e => Some (l2, tr, Err e)
          | Panic => Some (l2, tr, Panic)
          | Ok _ => if snd (os_wait o) then Some (l2, XWaited :: tr, Ok XTimedOut)
                    else Some (l2, tr, Err WaitFailed)
          end
        end
    end
  end
  end.

(** ** backends/src/running.rs:186-243: the postprocessing of a back end with an output check
    [(init, f)]; [denied_*] say that the warning is denied, and then the check fails with an
    error.  Result: number of OutputInvalid warnings, whether RunTestFailed was issued, answer. *)
Section Post.
Context (init : bool) (f : text -> bool) (denied_invalid denied_failed : bool).
(** One step of the [try_fold]. *)
Definition post_line (acc : nat * res exec_error bool) (line : list N) : nat * res exec_error bool :=
  match acc with
  | (k, Ok prev) =>
    match dec line with
    | None => (S k, if denied_invalid then Err PostFailed else Ok prev)
    | Some t => (k, Ok (if init then prev && f t else prev || f t))
    end
  | _ => acc
  end.
(** [byte_lines] of crate [bstr] splits bytes as [str::lines] splits characters. *)
Definition postprocess (stdout : list N) (st : status) : nat * bool * res exec_error bool :=
  match fold_left post_line (lines stdout) (0%nat, Ok init) with
  | (k, Ok true) => (k, false, Ok true)
  | (k, Ok false) =>
    match st with
    | Signaled _ => (k, false, Err PostFailed)
    | Exited _ => (k, true, if denied_failed then Err PostFailed else Ok false)
    end
  | (k, r) => (k, false, r)
  end.
End Post.

(** ** The output checks of the back ends *)
Local Open Scope string_scope.
(** backends/src/rust/mod.rs:675. *)
Definition rust_check (test : text) : bool * (text -> bool) := (false, fun line => text_eqb line (s2t "running 1 test")).
(** backends/src/go/mod.rs:527-532. *)
Definition go_check (test : text) : bool * (text -> bool) :=
  (false, fun line => text_eqb line (s2t "=== RUN   " ++ test)%list).
(** [str::contains]. *)
Fixpoint contains (needle hay : text) : bool :=
  match hay with
  | [] => match needle with [] => true | _ => false end
  | _ :: r => match strip_prefix needle hay with Some _ => true | None => contains needle r end
  end.
(** backends/src/foundry/mod.rs:461-466. *)
Definition foundry_check (test : text) : bool * (text -> bool) :=
  (false, contains (s2t " " ++ test ++ s2t "(")%list).

(** ** TypeScript back ends: backends/src/ts/inner/mod.rs:48-54 [ItMessageState]; the map from source
    files to maps from messages to states, as a function. *)
Inductive it_state := NotFound | Found | WarningEmitted.
Definition it_map := path -> option (text -> it_state).

Definition it_set (p : path) (m : text -> it_state) (im : it_map) : it_map :=
  fun q => if path_eqb p q then Some m else im q.
Definition msg_set (t : text) (s : it_state) (m : text -> it_state) : text -> it_state :=
  fun u => if text_eqb t u then s else m u.

(** backends/src/ts/inner/mod.rs:105-113: messages seen by a successful dry run. *)
Definition it_dry_run (p : path) (messages : list text) (im : it_map) : it_map :=
  it_set p (fold_left (fun m t => msg_set t Found m) messages
              (match im p with Some m => m | None => fun _ => NotFound end)) im.

(** backends/src/ts/inner/mod.rs:129-172 [exec]: new map, whether a warning was issued, and the answer:
    [Ok (Some tt)] an execution, [Ok None] the error that is reported as nonbuildable. *)
Definition it_exec (denied : bool) (p : path) (test : text) (im : it_map)
  : it_map * bool * res unit (option unit) :=
  match im p with
  | None => (im, false, Panic)                       (* expect("source file is not in map") *)
  | Some m =>
    match m test with
    | Found => (im, false, Ok (Some tt))
    | NotFound => if denied then (im, true, Err tt)
                  else (it_set p (msg_set test WarningEmitted m) im, true, Ok None)
    | WarningEmitted => (im, false, Ok None)
    end
  end.

(** The map after the events of a run (newest first), when a successful dry run of [p] prints
    [msgs p].  [builds]: what the framework does first (compile, check, or nothing) succeeds;
    otherwise the table is not consulted (backends/src/hardhat/mod.rs:79-81, anchor/mod.rs:135-137). *)
Section Ts.
Context (denied : bool) (msgs : path -> list text) (builds : trace -> text -> span -> bool) (o : oracle).
Fixpoint it_after (tr : trace) : it_map :=
  match tr with
  | [] => fun _ => None
  | (EDryRun p _ as e) :: r =>
    match o_dry_run o (e :: r) p with
    | Ok _ => it_dry_run p (msgs p) (it_after r)
    | _ => it_after r
    end
  | (EExec s t _ as e) :: r =>
    if builds (e :: r) t s then fst (fst (it_exec denied (sp_path s) t (it_after r))) else it_after r
  | _ :: r => it_after r
  end.

(** An oracle whose [exec] is that of a TypeScript back end. *)
Definition ts_oracle : oracle :=
  Oracle (o_dry_run o) (o_ctrlc o) (o_denied o) (o_backup_ok o) (o_extra o) (o_guard o) (o_write o) (o_build o)
    (fun tr t s => if builds tr t s then snd (it_exec denied (sp_path s) t (it_after (tl tr))) else Ok None)
    (o_perform o) (o_db_ok o).
End Ts.

(** Any sequence of dry runs and lookups on one table (backends/src/ts/inner/mod.rs:92-116, 129-172). *)
Inductive it_op := ItDry (p : path) (messages : list text) | ItExec (p : path) (test : text).
(** Table and warnings issued (newest first) after the operations (oldest first); a panic or
    an error ends the program, so nothing follows it. *)
Definition it_step (denied : bool) (op : it_op) (st : it_map * list (path * text)) : it_map * list (path * text) :=
  match op with
  | ItDry p ms => (it_dry_run p ms (fst st), snd st)
  | ItExec p t => match it_exec denied p t (fst st) with
                  | (im, true, _) => (im, (p, t) :: snd st)
                  | (im, false, _) => (im, snd st)
                  end
  end.
Definition it_history (denied : bool) (ops : list it_op) : it_map * list (path * text) :=
  fold_left (fun st op => it_step denied op st) ops (fun _ => None, []).
