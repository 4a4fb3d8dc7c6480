(** Model of the run loop: core/src/core.rs:310-433 [run] and the functions it calls
    (skip_past_removals, skip_present_spans, update_progress, instrument_statements,
    emit), core/src/span.rs:171-189 [remove], core/src/sqlite.rs:155-179 [insert].

    The world outside (back end, tests, signals, disk, database engine) is an oracle: a
    record of functions that receive the whole history of the run.  Quantifying over
    all oracles quantifies over all their behaviours, including nondeterministic
    ones, because two calls never see the same history.  Back ends are taken not to
    modify the source files themselves; whatever else they do is in their answers. *)
From Verif Require Import Base M_Text M_Rewriter M_Span M_Instr.

Definition path := list text.

Definition path_eqb (a b : path) : bool := if list_eq_dec (list_eq_dec N.eq_dec) a b then true else false.

(** core/src/framework/mod.rs:60-64 [SpanKind]. *)
Inductive kind := Statement | MethodCall.

(** One item of [SpanTestMaps::iter] (core/src/framework/mod.rs:42-53). *)
Record cand := Cand { c_span : span; c_kind : kind; c_tests : list text }.

(** core/src/framework/mod.rs:36-40, 56-58 [SpanTestMaps]: two [BTreeMap]s from span to test
    names, each as its list of entries in key order. *)
Record span_test_maps := STM {
  stm_statement : list (span * list text);
  stm_method : list (span * list text)
}.

(** core/src/framework/mod.rs:42-53 [SpanTestMaps::iter]: statements first. *)
Definition stm_iter (m : span_test_maps) : list cand :=
  map (fun e => Cand (fst e) Statement (snd e)) (stm_statement m) ++
  map (fun e => Cand (fst e) MethodCall (snd e)) (stm_method m).

(** core/src/outcome.rs:13-24 [Outcome]. *)
Inductive outcome := Skipped | Nonbuildable | Failed | TimedOut | Passed.

(** core/src/core.rs:40-45 [Removal]; also a row of the database
    (core/src/sqlite.rs:42-49) without its [url] column, which plays no part here. *)
Record removal := Removal { rm_span : span; rm_text : text; rm_outcome : outcome }.

(** core/src/warn.rs:17-37, the warnings of the run loop. *)
Inductive run_warning := DryRunFailed | FilesChanged | InstrumentationNonbuildable.

(** core/src/core.rs:47-62 [Mismatch]. *)
Inductive mismatch := Missing (r : removal) | Unexpected (r : removal).

(** How [perform_exec] ends when it does not fail (core/src/core.rs:820-869); refined in [M_Exec]. *)
Inductive exec_result := XNone | XPassed | XFailed | XTimedOut.

(** What an observer of the run sees, newest first in a trace. *)
Inductive event :=
| EDryRun (p : path) (fs : path -> text)               (* back end asked to dry run a file *)
| EBuild (p : path) (fs : path -> text)                (* back end asked to build an instrumented file *)
| EExec (s : span) (test : text) (fs : path -> text)   (* back end asked to build a test *)
| ERun (s : span) (test : text) (env : text) (fs : path -> text)
    (* a test is run, with NECESSIST_REMOVAL set to [env], on the disk [fs] *)
| EInsert (r : removal)                                (* row inserted in the database *)
| EConsole (r : removal)                               (* removal handed to the console *)
| EWarn (w : run_warning)                              (* warning issued *)
| EWarnChanged (m : mismatch)                          (* warning that files have changed *)
| ECtrlC                                               (* the Ctrl-C flag was found set *)
| EPoll                                                (* the Ctrl-C flag was found clear *)
| EWrite (p : path)                                    (* source file overwritten *)
| EBackup (p : path)
| ERestore (p : path).                                 (* backup dropped: source file restored *)

Definition trace := list event.

Inductive run_error := CtrlC | WarnDenied | BackupFailed | WriteFailed | BackendFailed | TextFailed | DbFailed.

Record oracle := Oracle {
  o_dry_run : trace -> path -> res unit unit;                 (* Run::dry_run *)
  o_ctrlc : trace -> bool;                                    (* has SIGINT arrived since the last look *)
  o_denied : run_warning -> bool;                             (* warn.rs:117-119: the warning is denied *)
  o_backup_ok : trace -> path -> bool;                        (* Backup::new succeeds *)
  o_extra : trace -> path -> nat -> res unit (option (line_column * text));  (* Run::instrument_source_file *)
  o_guard : span -> res unit text;                            (* prefix of Run::statement_prefix_and_suffix *)
  o_write : trace -> path -> option text;                     (* None: written; Some t: failed, file now holds t *)
  o_build : trace -> path -> res unit unit;                   (* Run::build_source_file *)
  o_exec : trace -> text -> span -> res unit (option unit);   (* Run::exec: Ok(Ok _) is Some, Ok(Err _) is None *)
  o_perform : trace -> text -> span -> res unit exec_result;  (* perform_exec *)
  o_db_ok : trace -> bool                                     (* SQLite does not fail for other reasons *)
}.

Record world := World {
  w_fs : path -> text;                      (* source files on disk *)
  w_db : option (list removal);             (* rows, oldest first; None with --no-sqlite *)
  w_trace : trace;
  w_ctrlc : bool;                           (* core.rs:38 CTRLC *)
  w_ib : option (path * text);              (* instrumentation_backup: file and saved contents *)
  w_progress : nat                          (* progress bar position *)
}.

(** State and exceptions; a Rust function that ends in an error or a panic leaves its
    effects behind, so the world is always returned. *)
Definition M (A : Type) := world -> world * res run_error A.
Definition ret {A} (a : A) : M A := fun w => (w, Ok a).
Definition fail {A} (e : run_error) : M A := fun w => (w, Err e).
Definition panic {A} : M A := fun w => (w, Panic).
Definition mbind {A B} (m : M A) (f : A -> M B) : M B :=
  fun w => match m w with
           | (w', Ok a) => f a w'
           | (w', Err e) => (w', Err e)
           | (w', Panic) => (w', Panic)
           end.
Declare Scope run_scope.
Notation "x <- m ;; f" := (mbind m (fun x => f)) (at level 61, m at next level, right associativity) : run_scope.
Notation "m ;; f" := (mbind m (fun _ => f)) (at level 61, right associativity) : run_scope.
Open Scope run_scope.

(** Code that runs on every way out of a scope (Rust drops). *)
Definition finally {A} (m : M A) (cleanup : world -> world) : M A :=
  fun w => let '(w', r) := m w in (cleanup w', r).

Definition log (e : event) (w : world) : world :=
  World (w_fs w) (w_db w) (e :: w_trace w) (w_ctrlc w) (w_ib w) (w_progress w).
Definition set_fs (f : path -> text) (w : world) : world :=
  World f (w_db w) (w_trace w) (w_ctrlc w) (w_ib w) (w_progress w).
Definition set_ib (b : option (path * text)) (w : world) : world :=
  World (w_fs w) (w_db w) (w_trace w) (w_ctrlc w) b (w_progress w).
Definition set_db (d : option (list removal)) (w : world) : world :=
  World (w_fs w) d (w_trace w) (w_ctrlc w) (w_ib w) (w_progress w).
Definition set_ctrlc (c : bool) (w : world) : world :=
  World (w_fs w) (w_db w) (w_trace w) c (w_ib w) (w_progress w).
Definition add_progress (n : nat) (w : world) : world :=
  World (w_fs w) (w_db w) (w_trace w) (w_ctrlc w) (w_ib w) (w_progress w + n).

Definition put_file (p : path) (t : text) (f : path -> text) : path -> text :=
  fun q => if path_eqb p q then t else f q.

(** Drop of a [Backup] (crate [rewriter], core/src/lib.rs:46; contract: the file gets
    the contents it had when the backup was made). *)
Definition restore (b : path * text) (w : world) : world :=
  log (ERestore (fst b)) (set_fs (put_file (fst b) (snd b) (w_fs w)) w).

Definition emit_event (e : event) : M unit := fun w => (log e w, Ok tt).
Definition lift {A} (r : res unit A) : M A :=
  fun w => match r with Ok a => (w, Ok a) | Err _ => (w, Err BackendFailed) | Panic => (w, Panic) end.

Section Run.
Context (hash16 : text -> text) (contents : path -> text) (o : oracle).
(* [contents] : what SourceFile::contents holds (source_file.rs:59-61, read once, when parsing). *)

(** [warn] as seen from the run loop (core/src/warn.rs:92-156; modelled in [M_Warn]). *)
Definition warn (w : run_warning) (e : event) : M unit :=
  emit_event e ;; if o_denied o w then fail WarnDenied else ret tt.

(** core/src/core.rs:345-347 and 418-420: [if CTRLC.load(..) { bail!(..) }].  The flag
    is only ever set (core.rs:311). *)
Definition check_ctrlc : M unit := fun w =>
  let c := w_ctrlc w || o_ctrlc o (w_trace w) in
  let w' := set_ctrlc c w in
  if c then (log ECtrlC w', Err CtrlC) else (log EPoll w', Ok tt).

(** [Backup::new]: remembers the contents on disk. *)
Definition backup_new (p : path) : M (path * text) := fun w =>
  if o_backup_ok o (w_trace w) p then (log (EBackup p) w, Ok (p, w_fs w p)) else (w, Err BackupFailed).

(** Opening for truncation and writing (core.rs:777-783, span.rs:182-186); may fail half way. *)
Definition write_file (p : path) (t : text) : M unit := fun w =>
  match o_write o (w_trace w) p with
  | None => (log (EWrite p) (set_fs (put_file p t (w_fs w)) w), Ok tt)
  | Some junk => (log (EWrite p) (set_fs (put_file p junk (w_fs w)) w), Err WriteFailed)
  end.

(** core/src/core.rs:583-624 [skip_past_removals].  The two iterators are the lists of
    what they still hold.  Structural on the sum of lengths, through [fuel]. *)
Fixpoint skip_past (fuel : nat) (mm : option mismatch) (n : nat) (spans : list cand) (past : list removal)
  : option mismatch * nat * list cand * list removal :=
  match fuel with
  | O => (mm, n, spans, past)
  | S f =>
    match spans, past with
    | c :: spans', r :: past' =>
      match span_compare (c_span c) (rm_span r) with
      | Lt => (Some (Unexpected r), n, spans, past)
      | Eq => skip_past f mm (S n) spans' past'
      | Gt => skip_past f (match mm with None => Some (Missing r) | Some _ => mm end) n spans past'
      end
    | _, _ => (mm, n, spans, past)
    end
  end.
Definition skip_past_removals (spans : list cand) (past : list removal) :=
  skip_past (length spans + length past) None 0 spans past.

(** core/src/core.rs:650-676 [update_progress]. *)
Definition update_progress (mm : option mismatch) (n : nat) : M unit :=
  (match mm with
   | Some m => warn FilesChanged (EWarnChanged m)
   | None => ret tt
   end) ;;
  fun w => (add_progress n w, Ok tt).

(** core/src/sqlite.rs:155-179 [insert] through core.rs:878-882: nothing with --no-sqlite;
    the primary key is the printed span (create_table_removal.sql). *)
Definition db_insert (r : removal) : M unit := fun w =>
  match w_db w with
  | None => (w, Ok tt)
  | Some rows =>
    if existsb (fun x => text_eqb (display_span (rm_span x)) (display_span (rm_span r))) rows
    then (w, Err DbFailed)
    else if o_db_ok o (w_trace w)
    then (log (EInsert r) (set_db (Some (rows ++ [r])) w), Ok tt)
    else (w, Err DbFailed)
  end.

(** [Span::source_text] (span.rs:152-169), in the run loop. *)
Definition source_text_m (s : span) : M text :=
  match source_text (contents (sp_path s)) s with
  | Ok t => ret t
  | Err _ => fail TextFailed
  | Panic => panic
  end.

(** core/src/core.rs:626-648 [skip_present_spans]. *)
Fixpoint skip_present (spans : list cand) : M nat :=
  match spans with
  | [] => ret 0
  | c :: rest =>
    (fun w => match w_db w with
              | None => (w, Ok tt)
              | Some _ => (t <- source_text_m (c_span c) ;;
                           db_insert (Removal (c_span c) t Skipped)) w
              end) ;;
    n <- skip_present rest ;; ret (S n)
  end.

(** core/src/core.rs:806-818 [count_instrumentable_statements] and the [while let] at 760: the statements
    at the front of the iterator. *)
Fixpoint take_statements (spans : list cand) : list span :=
  match spans with
  | c :: rest => match c_kind c with
                 | Statement => c_span c :: take_statements rest
                 | MethodCall => []
                 end
  | [] => []
  end.

(** core/src/core.rs:761: [statement_prefix_and_suffix(span)?] for every statement. *)
Fixpoint guards_ok (spans : list span) : res unit unit :=
  match spans with
  | [] => Ok tt
  | s :: rest => match o_guard o s with
                 | Ok _ => guards_ok rest
                 | Err e => Err e
                 | Panic => Panic
                 end
  end.
Definition guard_of (s : span) : text := match o_guard o s with Ok t => t | _ => [] end.

(** core/src/core.rs:744-783, up to the write.  Every back end's suffix is [end_text]. *)
Definition instrument_and_write (p : path) (spans : list cand) : M unit :=
  let sts := take_statements spans in
  extra <- (fun w => lift (o_extra o (w_trace w) p (length sts)) w) ;;
  lift (guards_ok sts) ;;
  match instrument (fun c => c) extra guard_of end_text (contents p) sts with
  | None => panic
  | Some t => write_file p t
  end.

(** core/src/core.rs:736-804 [instrument_statements]: [true] is [Ok(Some(backup))], and then the
    backup is in [w_ib]; on every other way out the backup is dropped. *)
Definition instrument_statements (p : path) (spans : list cand) : M bool := fun w =>
  match backup_new p w with
  | (w1, Ok b) =>
    match (instrument_and_write p spans ;;
           (fun w => (log (EBuild p (w_fs w)) w, Ok (o_build o (w_trace w) p)))) w1 with
    | (w2, Ok (Ok tt)) => (set_ib (Some b) w2, Ok true)
    | (w2, Ok (Err _)) =>
      (* core.rs:789-800: warn, then the backup is dropped *)
      match warn InstrumentationNonbuildable (EWarn InstrumentationNonbuildable) w2 with
      | (w3, Ok _) => (restore b w3, Ok false)
      | (w3, Err e) => (restore b w3, Err e)
      | (w3, Panic) => (restore b w3, Panic)
      end
    | (w2, Ok Panic) => (restore b w2, Panic)
    | (w2, Err e) => (restore b w2, Err e)
    | (w2, Panic) => (restore b w2, Panic)
    end
  | (w1, Err e) => (w1, Err e)
  | (w1, Panic) => (w1, Panic)
  end.

(** [drop(instrumentation_backup.take())] (core.rs:373) and its drop at the end of a
    file's iteration. *)
Definition drop_ib (w : world) : world :=
  match w_ib w with
  | None => w
  | Some b => set_ib None (restore b w)
  end.

(** core/src/span.rs:171-189 [remove], continued by [k] (the rest of the loop
    iteration), after which the explicit backup is dropped (core.rs:381-386). *)
Definition with_removal {A} (s : span) (k : M A) : M A := fun w =>
  match backup_new (sp_path s) w with
  | (w1, Ok b) =>
    finally (match remove_text (contents (sp_path s)) s with
             | None => panic
             | Some (_, t) => write_file (sp_path s) t ;; k
             end) (restore b) w1
  | (w1, Err e) => (w1, Err e)
  | (w1, Panic) => (w1, Panic)
  end.

(** core/src/core.rs:388-416: the closure of [try_fold]. *)
Definition run_test (explicit : bool) (s : span) (test : text) : M (option outcome) :=
  fun w0 =>
  let w := log (EExec s test (w_fs w0)) w0 in
  match o_exec o (w_trace w) test s with
  | Err _ => (w, Err BackendFailed)
  | Panic => (w, Panic)
  | Ok (Some _) =>
    let w1 := log (ERun s test (span_id hash16 s) (w_fs w)) w in
    match o_perform o (w_trace w1) test s with
    | Err _ => (w1, Err BackendFailed)
    | Panic => (w1, Panic)
    | Ok XNone => (w1, Ok None)
    | Ok XPassed => (w1, Ok (Some Passed))
    | Ok XFailed => (w1, Ok (Some Failed))
    | Ok XTimedOut => (w1, Ok (Some TimedOut))
    end
  | Ok None => if explicit then (w, Ok (Some Nonbuildable)) else (w, Panic)   (* the assert, core.rs:406 *)
  end.

(** core/src/core.rs:388-416: [try_fold] over the tests, starting from [Some(Passed)]. *)
Fixpoint fold_tests (explicit : bool) (s : span) (acc : option outcome) (tests : list text)
  : M (option outcome) :=
  match tests with
  | [] => ret acc
  | t :: rest =>
    acc' <- (match acc with
             | Some Passed => run_test explicit s t
             | _ => ret acc
             end) ;;
    fold_tests explicit s acc' rest
  end.

(** core/src/core.rs:871-887 [emit]. *)
Definition emit (r : removal) : M unit := db_insert r ;; emit_event (EConsole r).

(** core/src/core.rs:388-427: the part of an iteration after the removal is in place. *)
Definition test_candidate (explicit : bool) (c : cand) (t : text) : M unit :=
  out <- fold_tests explicit (c_span c) (Some Passed) (c_tests c) ;;
  check_ctrlc ;;
  (match out with
   | Some x => emit (Removal (c_span c) t x)
   | None => ret tt
   end) ;;
  update_progress None 1.

(** core/src/core.rs:372-427: one iteration of the loop, from the candidate on. *)
Definition one_candidate (c : cand) : M unit :=
  (fun w => (match c_kind c with Statement => w | MethodCall => drop_ib w end, Ok tt)) ;;
  t <- source_text_m (c_span c) ;;
  fun w =>
    let explicit := match w_ib w with
                    | None => true
                    | Some _ => match c_kind c with Statement => false | MethodCall => true end
                    end in
    (if explicit then with_removal (c_span c) (test_candidate true c t)
     else test_candidate false c t) w.

(** core/src/core.rs:363-428: the loop over the candidates of a file.  [fuel] is the
    number of candidates left, and is never exhausted early. *)
Fixpoint candidates_loop (fuel : nat) (spans : list cand) (past : list removal) : M (list removal) :=
  let '(mm, n, spans', past') := skip_past_removals spans past in
  update_progress mm n ;;
  match spans' with
  | [] => ret past'
  | c :: rest =>
    one_candidate c ;;
    match fuel with
    | O => ret past'
    | S f => candidates_loop f rest past'
    end
  end.

(** core/src/core.rs:317-429: the body of the loop over files.  [instrumentation_backup] is
    dropped on every way out. *)
Definition one_file (p : path) (maps : span_test_maps) (past : list removal) : M (list removal) :=
  let '(mm, n, spans, past') := skip_past_removals (stm_iter maps) past in
  update_progress mm n ;;
  match spans with
  | [] => ret past'
  | _ =>
    r <- (fun w => let w := log (EDryRun p (w_fs w)) w in (w, Ok (o_dry_run o (w_trace w) p))) ;;
    match r with
    | Panic => panic
    | _ =>
      (match r with Err _ => warn DryRunFailed (EWarn DryRunFailed) | _ => ret tt end) ;;
      check_ctrlc ;;
      match r with
      | Err _ => n <- skip_present spans ;; update_progress None n ;; ret past'
      | _ => finally (instrument_statements p spans ;; candidates_loop (length spans) spans past') drop_ib
      end
    end
  end.

(** core/src/core.rs:310-433 [run], after the database is opened. *)
Fixpoint run (files : list (path * span_test_maps)) (past : list removal) : M unit :=
  match files with
  | [] => ret tt
  | (p, maps) :: rest => past' <- one_file p maps past ;; run rest past'
  end.

(** The world when [run] begins: the disk, the open database (or none). *)
Definition start (fs : path -> text) (db : option (list removal)) : world := World fs db [] false None 0.

End Run.

(** [sort_by(|l, r| l.span.cmp(&r.span))] (core/src/core.rs:957), a stable sort. *)
Fixpoint sort_insert (r : removal) (l : list removal) : list removal :=
  match l with
  | [] => [r]
  | x :: l' => match span_compare (rm_span r) (rm_span x) with
               | Gt => x :: sort_insert r l'
               | _ => r :: x :: l'
               end
  end.
Fixpoint sort_removals (l : list removal) : list removal :=
  match l with
  | [] => []
  | r :: l' => sort_insert r (sort_removals l')
  end.

(** core/src/core.rs:916-966: the past removals of a run are the rows of the database, sorted by
    span; none with --no-sqlite.  (Rows hold printed spans, read back by [parse_span]: C02.) *)
Definition past_of (db : option (list removal)) : list removal :=
  match db with None => [] | Some rows => sort_removals rows end.

(** A whole run on disk [fs] with database [db]. *)
Definition run_from (hash16 : text -> text) (contents : path -> text) (o : oracle)
  (files : list (path * span_test_maps)) (fs : path -> text) (db : option (list removal))
  : world * res run_error unit :=
  run hash16 contents o files (past_of db) (start fs db).
