(** What a run that tests candidates prints on the console, from the command line to the end: the printing calls of
    core/src/core.rs:147-205 [necessist], 296-305 (announcement), 310-433 [run], 650-676 [update_progress], 785-800 (in
    [instrument_statements]) and core/src/sqlite.rs:80-112 (in [init]), in the order in which they are made.  Each call is tied to the
    event of [M_Run]'s trace that it directly follows.  What [M_Output.do_op] does with a call, given the options, is modelled there. *)
From Verif Require Import Base M_Text M_Rewriter M_Span M_Run M_Output M_Options M_Config M_Sqlite M_Main.

Section Console.
Context (v : env).
(** What the back end warns about when it is asked to dry run, build or run something (modelled in [M_Commands], [M_Exec]), and the texts
    of its errors. *)
Context (chatter : trace -> list print_op) (why : trace -> text).

(** core/src/core.rs:47-57 [MismatchKind]. *)
Definition mismatch_kind (m : mismatch) : text := match m with Missing _ => s2t "missing" | Unexpected _ => s2t "unexpected" end.
Definition mismatch_removal (m : mismatch) : removal := match m with Missing r | Unexpected r => r end.
(** core/src/core.rs:656-667. *)
Definition changed_text (m : mismatch) : text :=
  s2t "configuration or source files have changed since necessist.db was created; the following entry is " ++ mismatch_kind m ++ s2t ":" ++ [NL]
  ++ s2t "    " ++ console_span v (rm_span (mismatch_removal m)) ++ s2t ": `" ++ remove_cr (rm_text (mismatch_removal m)) ++ s2t "`".

(** The printing calls made between the event [e] and the next, after the events [pre]. *)
Definition says (e : event) (pre : trace) : list print_op :=
  match e with
  | EDryRun p _ => OpPrintln (console_path v p ++ s2t ": dry running") :: chatter (e :: pre)     (* core.rs:328-333; the line comes first *)
  | EWarn DryRunFailed =>                                                                        (* 335-343, directly after the dry run *)
    match pre with
    | EDryRun p _ :: _ => [OpWarn WDryRunFailed (Some (console_path v p)) (s2t "dry run failed: " ++ why pre) false]
    | _ => []
    end
  | EPoll =>                                                                                     (* 355-358, if the dry run did not fail *)
    match pre with
    | EDryRun p _ :: _ => [OpPrintln (console_path v p ++ s2t ": mutilating")]
    | _ => []
    end
  | EBuild _ _ | EExec _ _ _ | ERun _ _ _ _ => chatter (e :: pre)
  | EWarn InstrumentationNonbuildable =>                                                         (* 789-798, directly after the build *)
    match pre with
    | EBuild p _ :: _ => [OpWarn WInstrumentationNonbuildable None
                            (s2t "instrumentation caused `" ++ console_path v p ++ s2t "` to be nonbuildable: " ++ why pre) false]
    | _ => []
    end
  | EWarnChanged m => [OpWarn WFilesChanged None (changed_text m) true]                          (* 656-668 *)
  | EConsole r => [OpRemoval r]                                                                  (* 884 *)
  | _ => []
  end.
Fixpoint spoken (tr : trace) : list print_op :=
  match tr with [] => [] | e :: pre => spoken pre ++ says e pre end.

(** core/src/sqlite.rs:80-108: --reset or --resume without a database. *)
Definition opening (o : options) (db : db_file) (where_ : text) : list print_op :=
  match op_no_sqlite o, db with
  | false, None =>
    let warning flag := OpWarn WDatabaseDoesNotExist None
      (s2t "no sqlite database to " ++ s2t flag ++ s2t " at """ ++ where_ ++ s2t """; creating new database") true in
    if op_reset o then [warning "reset"%string] else if op_resume o then [warning "resume"%string] else []
  | _, _ => []
  end.

(** All calls of an invocation that gets to test candidates: [n] tests were found, [parsing] is what was printed while looking for them
    (see [M_Parsing]). *)
Definition calls (o : options) (parsing : list print_op) (n : nat) (files : list (path * span_test_maps)) (db : db_file) (where_ : text) (tr : trace)
  : list (context * print_op) :=
  let po := print_opts_of o in
  map (pair (light_context po))
    ((if op_no_local_functions o
      then [OpWarn WOptionDeprecated None (s2t "--no-local-functions is now the default; hence, this option is deprecated") false] else [])
     ++ parsing ++ [OpPrintln (announcement (n_spans files) n (length files))]) ++
  map (pair (run_context v po)) (opening o db where_ ++ spoken tr).

(** What appears. *)
Definition console (o : options) parsing n files db where_ tr : list out :=
  flat_map (fun x => match fst x with Some l => l | None => [] end) (snd (do_ops v wmap_empty (calls o parsing n files db where_ tr))).
End Console.
