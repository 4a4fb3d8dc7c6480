(** Model of what necessist prints while it works: core/src/warn.rs, and the printing parts of
    core/src/core.rs ([necessist] 146-205, [dump] 536-546, [dump_candidates] 678-702,
    [dump_candidate_counts] 704-734, [emit_to_console] 889-914, the announcement 296-305). *)
From Verif Require Import Base M_Text M_Rewriter M_Span M_Run.
Local Open Scope N_scope.

(** core/src/warn.rs:17-35 [Warning]. *)
Inductive warning :=
| WAll | WDatabaseDoesNotExist | WDirectiveUnrecognized | WDryRunFailed | WFilesChanged
| WIgnoredFunctionsUnsupported | WIgnoredMacrosUnsupported | WIgnoredMethodsUnsupported
| WInstrumentationNonbuildable | WItMessageNotFound | WLocalFunctionAmbiguous | WModulePathUnknown
| WOptionDeprecated | WOutputInvalid | WParsingFailed | WRunTestFailed | WSkipFileMispositioned.

Definition warning_eq_dec (a b : warning) : {a = b} + {a <> b}.
Proof. decide equality. Defined.
Definition warning_eqb (a b : warning) : bool := if warning_eq_dec a b then true else false.

(** The derived [Debug] names (core/src/warn.rs:13). *)
Definition warning_debug (w : warning) : text := s2t
  match w with
  | WAll => "All" | WDatabaseDoesNotExist => "DatabaseDoesNotExist"
  | WDirectiveUnrecognized => "DirectiveUnrecognized" | WDryRunFailed => "DryRunFailed"
  | WFilesChanged => "FilesChanged" | WIgnoredFunctionsUnsupported => "IgnoredFunctionsUnsupported"
  | WIgnoredMacrosUnsupported => "IgnoredMacrosUnsupported"
  | WIgnoredMethodsUnsupported => "IgnoredMethodsUnsupported"
  | WInstrumentationNonbuildable => "InstrumentationNonbuildable"
  | WItMessageNotFound => "ItMessageNotFound" | WLocalFunctionAmbiguous => "LocalFunctionAmbiguous"
  | WModulePathUnknown => "ModulePathUnknown" | WOptionDeprecated => "OptionDeprecated"
  | WOutputInvalid => "OutputInvalid" | WParsingFailed => "ParsingFailed"
  | WRunTestFailed => "RunTestFailed" | WSkipFileMispositioned => "SkipFileMispositioned"
  end%string.

(** [heck::ToKebabCase] on a CamelCase identifier without adjacent capitals or digits, which all
    identifiers here are: a dash before every capital but the first, and lower case. *)
Definition is_upper (c : char) : bool := (65 <=? c) && (c <=? 90).
Fixpoint kebab_rest (t : text) : text :=
  match t with
  | [] => []
  | c :: r => if is_upper c then DASH :: (c + 32) :: kebab_rest r else c :: kebab_rest r
  end.
Definition kebab (t : text) : text :=
  match t with
  | [] => []
  | c :: r => (if is_upper c then c + 32 else c) :: kebab_rest r
  end.

(** core/src/warn.rs:37-41 [Display for Warning]. *)
Definition warning_name (w : warning) : text := kebab (warning_debug w).

(** The options that matter for printing (core/src/opts.rs, [Necessist]). *)
Record print_opts := PrintOpts {
  po_allow : list warning;
  po_deny : list warning;
  po_quiet : bool;
  po_verbose : bool;
  po_no_lines_or_columns : bool
}.

(** core/src/core.rs:64-96 [Context]/[LightContext], as far as printing goes: which closure
    [println] is, and whether there is a progress bar. *)
Inductive printer := PrintNothing | PrintStdout | PrintProgress.
Record context := Ctx { x_opts : print_opts; x_printer : printer; x_progress : bool }.

(** Facts of the environment: is stdout a terminal, is RUST_LOG set, the current directory (if it can be
    determined) and the root, as components of absolute paths. *)
Record env := Env { e_terminal : bool; e_rust_log : bool; e_cwd : option path; e_root : path }.

(** core/src/core.rs:148-160: the context for everything before the run. *)
Definition light_context (o : print_opts) : context :=
  Ctx o (if po_quiet o then PrintNothing else PrintStdout) false.

(** core/src/core.rs:175-205: the context of the run. *)
Definition run_context (v : env) (o : print_opts) : context :=
  let progress := negb (e_rust_log v) && negb (po_quiet o) && e_terminal v in
  let pr := if po_quiet o then PrintNothing else PrintStdout in
  if progress then Ctx o PrintProgress true else Ctx o pr false.

(** What appears on stdout: lines, each with what it is about (a tag of the model, not
    printed), and movements of the progress bar. *)
Inductive about := AWarning (w : warning) | ANote | ARemoval (r : removal) | ACandidate (s : span) | ACount (p : path) | AOther.
Inductive out := OLine (a : about) (t : text) | OBar (n : nat).

(** [(context.println)(msg)]: core/src/core.rs:151, 154-156, 194-199.  [None] is the panic of
    the [unwrap] at 198. *)
Definition println (x : context) (a : about) (msg : text) : option (list out) :=
  match x_printer x with
  | PrintNothing => Some []
  | PrintStdout => Some [OLine a msg]
  | PrintProgress => if x_progress x then Some [OLine a msg] else None
  end.

(** [ansi_term] painting: core/src/warn.rs:143-148, 172-177, core.rs:904-909. *)
Definition ESC : char := 27.
Definition paint (v : env) (code : string) (t : text) : text :=
  if e_terminal v then ESC :: s2t "[1;" ++ s2t code ++ s2t "m" ++ t ++ ESC :: s2t "[0m" else t.

(** core/src/warn.rs:82-88 [State]: three bits per warning. *)
Record wstate := WState { allow_msg_emitted : bool; bug_msg_emitted : bool; warning_emitted : bool }.
Definition wempty : wstate := WState false false false.
(** core/src/warn.rs:90 [WARNING_STATE_MAP]; an absent entry is an empty one (104-106). *)
Definition wmap := warning -> wstate.
Definition wmap_empty : wmap := fun _ => wempty.
Definition wmap_set (m : wmap) (w : warning) (s : wstate) : wmap :=
  fun x => if warning_eqb w x then s else m x.

(** core/src/warn.rs:182-202 [may_be_bug]; never called with [All]. *)
Definition may_be_bug (w : warning) : bool :=
  match w with
  | WInstrumentationNonbuildable | WModulePathUnknown | WRunTestFailed => true
  | _ => false
  end.

(** core/src/warn.rs:78-80 [BUG_MSG]. *)
Definition BUG_MSG : text :=
  s2t "This may indicate a bug in Necessist. Consider opening an issue at: https://github.com/trailofbits/necessist/issues".

(** core/src/warn.rs:158-163 [append_paragraph]. *)
Definition append_paragraph (msg paragraph : text) : text :=
  trim_end msg ++ [NL; NL] ++ paragraph ++ [NL].

Definition has_warning (w : warning) (l : list warning) : bool := existsb (warning_eqb w) l.

(** The outcome of an operation that may print: [Err] carries the message. *)
Definition printed := (wmap * option (list out) * res text unit)%type.

(** core/src/warn.rs:92-156 [warn_internal]; [source] is the printed source, if there is one, [once] is
    [flags.contains(Flags::ONCE)]. *)
Definition warn_internal (v : env) (x : context) (m : wmap) (w : warning) (source : option text) (msg : text)
  (once : bool) : printed :=
  match w with
  | WAll => (m, Some [], Panic)                                             (* 99 *)
  | _ =>
    let st := m w in
    let bug := may_be_bug w && negb (bug_msg_emitted st) in                 (* 110-113 *)
    let msg := if bug then append_paragraph msg BUG_MSG else msg in
    let st := WState (allow_msg_emitted st) (bug || bug_msg_emitted st) (warning_emitted st) in
    let o := x_opts x in
    if has_warning WAll (po_deny o) || has_warning w (po_deny o)            (* 115-117 *)
    then (wmap_set m w st, Some [], Err msg)
    else if po_quiet o || has_warning WAll (po_allow o) || has_warning w (po_allow o)
            || (once && warning_emitted st)                                 (* 119-125 *)
    then (wmap_set m w st, Some [], Ok tt)
    else
      let allow_msg := if allow_msg_emitted st then []                      (* 127-135 *)
                       else NL :: s2t "Silence this warning with: --allow " ++ warning_name w in
      let line := (match source with Some s => s ++ s2t ": " | None => [] end)
                    ++ paint v "33" (s2t "Warning") ++ s2t ": " ++ msg ++ allow_msg in
      match println x (AWarning w) line with                                (* 137-151 *)
      | None => (wmap_set m w (WState true (bug_msg_emitted st) (warning_emitted st)), None, Panic)
      | Some l => (wmap_set m w (WState true (bug_msg_emitted st) true), Some l, Ok tt)  (* 153 *)
      end
  end.

(** core/src/warn.rs:165-180 [note]. *)
Definition note (v : env) (x : context) (msg : text) : option (list out) :=
  if po_quiet (x_opts x) then Some []
  else println x ANote (paint v "32" (s2t "Note") ++ s2t ": " ++ msg).

(** core/src/outcome.rs:12 [Debug], 26-30 [Display]. *)
Definition outcome_debug (x : outcome) : text := s2t
  match x with
  | Skipped => "Skipped" | Nonbuildable => "Nonbuildable" | Failed => "Failed"
  | TimedOut => "TimedOut" | Passed => "Passed"
  end%string.
Definition outcome_name (x : outcome) : text := kebab (outcome_debug x).

(** core/src/outcome.rs:41-51 [style], made bold at core.rs:905. *)
Definition outcome_code (x : outcome) : string :=
  match x with Skipped => "2" | Nonbuildable => "34" | Failed => "32" | TimedOut => "33" | Passed => "31" end%string.

(** core/src/util.rs:53-58 [strip_current_dir] and source_file.rs:114-118: the printed name of a source file,
    which is the part of its path below the current directory if it lies there. *)
Fixpoint strip_components (base p : path) : option path :=
  match base, p with
  | [], _ => Some p
  | b :: base', c :: p' => if text_eqb b c then strip_components base' p' else None
  | _ :: _, [] => None
  end.
Definition console_path (v : env) (p : path) : text :=
  let full := e_root v ++ p in
  match e_cwd v with
  | None => SLASH :: join_path full
  | Some cwd => match strip_components cwd full with
                | Some rel => join_path rel
                | None => SLASH :: join_path full
                end
  end.

(** core/src/span.rs:39-43 [to_console_string]. *)
Definition console_span (v : env) (s : span) : text := to_string_with_path (console_path v (sp_path s)) s.

(** [text.replace('\r', "")] (core.rs:665, 698, 903). *)
Definition remove_cr (t : text) : text := filter (fun c => negb (c =? CR)) t.

Definition BACKTICK : char := 96.

Definition is_passed (x : outcome) : bool := match x with Passed => true | _ => false end.

(** core/src/core.rs:889-914 [emit_to_console]. *)
Definition emit_to_console (v : env) (x : context) (r : removal) : option (list out) :=
  let o := x_opts x in
  if negb (po_quiet o) && (po_verbose o || is_passed (rm_outcome r)) then
    let loc := if po_no_lines_or_columns o then console_path v (sp_path (rm_span r))
               else console_span v (rm_span r) in
    println x (ARemoval r)
      (loc ++ s2t ": " ++ BACKTICK :: remove_cr (rm_text r) ++ BACKTICK :: s2t " "
         ++ paint v (outcome_code (rm_outcome r)) (outcome_name (rm_outcome r)))
  else Some [].

Definition seq (a b : option (list out)) : option (list out) :=
  match a, b with Some l, Some l' => Some (l ++ l') | _, _ => None end.

(** core/src/core.rs:536-546 [dump]. *)
Fixpoint dump_loop (v : env) (x : context) (rs : list removal) (other : bool) : option (list out) * bool :=
  match rs with
  | [] => (Some [], other)
  | r :: rest =>
    let '(l, other') := dump_loop v x rest (other || negb (is_passed (rm_outcome r))) in
    (seq (emit_to_console v x r) l, other')
  end.
Definition dump (v : env) (x : context) (rs : list removal) : option (list out) :=
  let '(l, other) := dump_loop v x rs false in
  seq l (if negb (po_verbose (x_opts x)) && other
         then note v x (s2t "more output would be produced with --verbose") else Some []).

(** core/src/core.rs:671-673, 430: the progress bar moves. *)
Definition bar (x : context) (n : nat) : option (list out) := Some (if x_progress x then [OBar n] else []).

(** ** Candidates and their counts *)

Definition stm_spans (m : span_test_maps) : list span :=
  map fst (stm_statement m) ++ map fst (stm_method m).

(** core/src/core.rs:678-702 [dump_candidates]. [contents]: see [M_Run].  The result is [Err] when a
    text cannot be read, [Panic] when [source_text] or [println] panics. *)
Fixpoint dump_spans (v : env) (x : context) (contents : path -> text) (ss : list span) : option (list out) * res text unit :=
  match ss with
  | [] => (Some [], Ok tt)
  | s :: rest =>
    match source_text (contents (sp_path s)) s with
    | Ok t =>
      let loc := if po_no_lines_or_columns (x_opts x) then console_path v (sp_path s) else console_span v s in
      match println x (ACandidate s) (loc ++ s2t ": " ++ BACKTICK :: remove_cr t ++ [BACKTICK]) with
      | Some l => let '(l', r) := dump_spans v x contents rest in (seq (Some l) l', r)
      | None => (None, Panic)
      end
    | Err _ => (Some [], Err [])
    | Panic => (Some [], Panic)
    end
  end.
Definition dump_candidates (v : env) (x : context) (contents : path -> text) (files : list (path * span_test_maps)) :=
  dump_spans v x contents (flat_map (fun f => stm_spans (snd f)) files).

(** core/src/core.rs:709-716: count and file. *)
Definition file_count (f : path * span_test_maps) : nat * path :=
  ((length (stm_statement (snd f)) + length (stm_method (snd f)))%nat, fst f).

(** [Ord] of the pair [(usize, &SourceFile)]. *)
Definition count_compare (a b : nat * path) : comparison :=
  match Nat.compare (fst a) (fst b) with Eq => path_compare (snd a) (snd b) | c => c end.

(** [candidate_counts.sort()] (core.rs:718), a stable sort. *)
Fixpoint count_insert (x : nat * path) (l : list (nat * path)) : list (nat * path) :=
  match l with
  | [] => [x]
  | y :: l' => match count_compare x y with Gt => y :: count_insert x l' | _ => x :: l end
  end.
Definition count_sort (l : list (nat * path)) : list (nat * path) := fold_right count_insert [] l.

(** [{count:width$}]: right-aligned in a field of the given width. *)
Definition right_align (width : nat) (t : text) : text := repeat 32 (width - length t) ++ t.

(** core/src/core.rs:704-734 [dump_candidate_counts]. *)
Definition dump_candidate_counts (v : env) (x : context) (files : list (path * span_test_maps)) : option (list out) :=
  let counts := count_sort (map file_count files) in
  let width := list_max (map (fun c => length (print_usize (fst c))) counts) in
  fold_right (fun c l => seq (println x (ACount (snd c))
                                (right_align width (print_usize (fst c)) ++ 32 :: console_path v (snd c))) l)
    (Some []) counts.

(** core/src/core.rs:239-253 [n_spans]. *)
Definition n_spans (files : list (path * span_test_maps)) : nat :=
  list_sum (map (fun f => list_sum (map (fun e => length (snd e)) (stm_statement (snd f)))
                        + list_sum (map (fun e => length (snd e)) (stm_method (snd f))))%nat files).

(** core/src/core.rs:296-305: the announcement. *)
Definition announcement (n_spans n_tests n_files : nat) : text :=
  print_usize n_spans ++ s2t " candidates in " ++ print_usize n_tests ++ s2t " test"
    ++ (if Nat.eqb n_tests 1 then [] else s2t "s") ++ s2t " in " ++ print_usize n_files ++ s2t " source file"
    ++ (if Nat.eqb n_files 1 then [] else s2t "s").

(** ** Everything a process prints *)

(** The operations that print, in the order in which the process performs them. *)
Inductive print_op :=
| OpWarn (w : warning) (source : option text) (msg : text) (once : bool)
| OpNote (msg : text)
| OpRemoval (r : removal)
| OpDump (rs : list removal)
| OpCandidates (contents : path -> text) (files : list (path * span_test_maps))
| OpCounts (files : list (path * span_test_maps))
| OpPrintln (msg : text)          (* "dry running", "mutilating" (core.rs:328-331, 355-358), the announcement *)
| OpBar (n : nat).

Definition of_out (m : wmap) (l : option (list out)) : printed :=
  (m, l, match l with Some _ => Ok tt | None => Panic end).

Definition do_op (v : env) (x : context) (m : wmap) (op : print_op) : printed :=
  match op with
  | OpWarn w source msg once => warn_internal v x m w source msg once
  | OpNote msg => of_out m (note v x msg)
  | OpRemoval r => of_out m (emit_to_console v x r)
  | OpDump rs => of_out m (dump v x rs)
  | OpCandidates contents files => let '(l, r) := dump_candidates v x contents files in (m, l, r)
  | OpCounts files => of_out m (dump_candidate_counts v x files)
  | OpPrintln msg => of_out m (println x AOther msg)
  | OpBar n => of_out m (bar x n)
  end.

(** A process performs operations, each in the context of the moment; an error may be
    handled, so the process may go on. *)
Fixpoint do_ops (v : env) (m : wmap) (ops : list (context * print_op)) : wmap * list (option (list out) * res text unit) :=
  match ops with
  | [] => (m, [])
  | (x, op) :: rest =>
    let '(m1, l, r) := do_op v x m op in
    let '(m2, ls) := do_ops v m1 rest in
    (m2, (l, r) :: ls)
  end.
