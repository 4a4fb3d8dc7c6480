(** Specification vocabulary for what necessist prints. *)
From Verif Require Import Base M_Text M_Rewriter M_Span M_Run S_Run M_Output.
From Coq Require Import Permutation.

(** A warning is denied, or allowed, by the options: by its own name or by [all]. *)
Definition denied (o : print_opts) (w : warning) : Prop := In WAll (po_deny o) \/ In w (po_deny o).
Definition allowed (o : print_opts) (w : warning) : Prop := In WAll (po_allow o) \/ In w (po_allow o).

(** The two contexts a process ever uses. *)
Definition proper (v : env) (x : context) : Prop := exists o, x = light_context o \/ x = run_context v o.

(** In the outputs so far, a warning of kind [w] has appeared. *)
Definition appeared (w : warning) (outs : list (option (list out) * res text unit)) : Prop :=
  exists l r t, In (Some l, r) outs /\ In (OLine (AWarning w) t) l.
(** In the operations so far, [w] has been raised. *)
Definition raised (w : warning) (ops : list (context * print_op)) : Prop :=
  exists x s m b, In (x, OpWarn w s m b) ops.

(** Everything on stdout, in order. *)
Definition stdout (outs : list (option (list out) * res text unit)) : list out :=
  flat_map (fun o => match fst o with Some l => l | None => [] end) outs.
Definition warning_lines (w : warning) (l : list out) : list text :=
  flat_map (fun o => match o with
                     | OLine (AWarning w') t => if warning_eqb w w' then [t] else []
                     | _ => [] end) l.
Definition removal_lines (l : list out) : list text :=
  flat_map (fun o => match o with OLine (ARemoval _) t => [t] | _ => [] end) l.

(** The names of the warnings, as --allow and --deny take them. *)
Definition warning_word (w : warning) : string :=
  match w with
  | WAll => "all" | WDatabaseDoesNotExist => "database-does-not-exist" | WDirectiveUnrecognized => "directive-unrecognized"
  | WDryRunFailed => "dry-run-failed" | WFilesChanged => "files-changed"
  | WIgnoredFunctionsUnsupported => "ignored-functions-unsupported" | WIgnoredMacrosUnsupported => "ignored-macros-unsupported"
  | WIgnoredMethodsUnsupported => "ignored-methods-unsupported" | WInstrumentationNonbuildable => "instrumentation-nonbuildable"
  | WItMessageNotFound => "it-message-not-found" | WLocalFunctionAmbiguous => "local-function-ambiguous"
  | WModulePathUnknown => "module-path-unknown" | WOptionDeprecated => "option-deprecated" | WOutputInvalid => "output-invalid"
  | WParsingFailed => "parsing-failed" | WRunTestFailed => "run-test-failed" | WSkipFileMispositioned => "skip-file-mispositioned"
  end%string.

(** The line of a warning: where, what, the request to report a bug ([bug]), how to silence it ([advice]). *)
Definition warning_line (v : env) (w : warning) (source : option text) (msg : text) (bug advice : bool) : text :=
  (match source with Some s => s ++ s2t ": " | None => [] end)
  ++ (if e_terminal v then 27%N :: s2t "[1;33mWarning" ++ 27%N :: s2t "[0m" else s2t "Warning")
  ++ s2t ": "
  ++ (if bug then trim_end msg ++ [NL; NL]
        ++ s2t "This may indicate a bug in Necessist. Consider opening an issue at: https://github.com/trailofbits/necessist/issues"
        ++ [NL]
      else msg)
  ++ (if advice then NL :: s2t "Silence this warning with: --allow " ++ s2t (warning_word w) else []).

(** Kinds of warnings that may indicate a bug. *)
Definition suspicious (w : warning) : Prop :=
  w = WInstrumentationNonbuildable \/ w = WModulePathUnknown \/ w = WRunTestFailed.

(** A removal is asked for by the options. *)
Definition shown (o : print_opts) (r : removal) : bool :=
  if po_quiet o then false else if po_verbose o then true
  else match rm_outcome r with Passed => true | _ => false end.

(** The names of the outcomes. *)
Definition outcome_word (x : outcome) : string :=
  match x with
  | Skipped => "skipped" | Nonbuildable => "nonbuildable" | Failed => "failed"
  | TimedOut => "timed-out" | Passed => "passed"
  end%string.

(** Passed (the removal nobody noticed) is red, timed-out yellow, failed green, nonbuildable blue, skipped dim. *)
Definition outcome_style (x : outcome) : string :=
  match x with Passed => "31" | TimedOut => "33" | Failed => "32" | Nonbuildable => "34" | Skipped => "2" end%string.

(** [t] names the file [p] of the project: relative to the current directory if the file lies there, else from the
    root of the file system. *)
Fixpoint slashed (p : path) : text :=
  match p with [] => [] | [c] => c | c :: r => c ++ s2t "/"%string ++ slashed r end.
Definition file_name (v : env) (p : path) (t : text) : Prop :=
  (exists cwd rel, e_cwd v = Some cwd /\ e_root v ++ p = cwd ++ rel /\ t = slashed rel) \/
  ((forall cwd rel, e_cwd v = Some cwd -> e_root v ++ p <> cwd ++ rel) /\ t = s2t "/"%string ++ slashed (e_root v ++ p)).

(** A text without its carriage returns. *)
Fixpoint without_cr (t : text) : text :=
  match t with [] => [] | c :: r => if N.eq_dec c 13 then without_cr r else c :: without_cr r end.

(** The line of a removal: location, text without carriage returns, outcome. *)
Definition removal_line (v : env) (o : print_opts) (r : removal) : text :=
  console_path v (sp_path (rm_span r))
  ++ (if po_no_lines_or_columns o then []
      else s2t ":" ++ print_usize (line (sp_start (rm_span r))) ++ s2t ":" ++ print_usize (column (sp_start (rm_span r)) + 1)
           ++ s2t "-" ++ print_usize (line (sp_end (rm_span r))) ++ s2t ":" ++ print_usize (column (sp_end (rm_span r)) + 1))
  ++ s2t ": `" ++ without_cr (rm_text r) ++ s2t "` "
  ++ (if e_terminal v then 27%N :: s2t "[1;" ++ s2t (outcome_style (rm_outcome r)) ++ s2t "m" else [])
  ++ s2t (outcome_word (rm_outcome r))
  ++ (if e_terminal v then 27%N :: s2t "[0m" else []).

(** The removals an operation is asked to print. *)
Definition asked (op : print_op) : list removal :=
  match op with OpRemoval r => [r] | OpDump rs => rs | _ => [] end.

(** Ascending by count, then by path. *)
Definition count_le (a b : nat * path) : Prop :=
  fst a < fst b \/ (fst a = fst b /\ path_compare (snd a) (snd b) <> Gt).
Fixpoint counts_ascend (l : list (nat * path)) : Prop :=
  match l with
  | a :: (b :: _) as r => count_le a b /\ counts_ascend r
  | _ => True
  end.
