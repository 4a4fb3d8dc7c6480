(** Model of the Anchor back end's handling of Anchor.toml: backends/src/anchor/mod.rs:25-56, 83-267.

    Anchor.toml is the only file that changes here.  A [Backup] (crate [rewriter]) is rendered by the contents that it
    restores when it is dropped; that drops happen on every way out of a scope, also when the code panics, is Rust's.  A
    command may do anything to Anchor.toml while it runs.  toml_edit's documents are a parameter. *)
From Verif Require Import Base M_Text M_Span M_Run M_Output M_Exec M_Go M_Select M_Ts.
Local Open Scope N_scope.

Inductive runner := Mocha | Vitest.
Inductive anchor_error := CannotRead | NotToml | NoTestScript | NotAString | Unparsable | UnknownRunner
  | NoBackup | CannotWrite | InstallFailed | CommandFailed | ExtractFailed | InnerFailed.

(** ** 225-258: parsing the test script *)
Section Parse.
Context (word : char -> bool).     (* Unicode's [\w] *)
Definition not_space (c : char) : bool := negb (c =? 32).
(** 225-230 [TEST_RE] between [^] and [$]: anything, then a space; characters other than spaces, ".ts" and a word boundary; anything.
    The engine of [M_Go] has one group, so the expression comes twice, capturing the first and the second group; captures do not
    influence which match is found. *)
Definition test_re (group1 group2 : rx -> rx) : rx :=
  XSeq (group1 (XSeq (XStar dot) (XChar 32))) (XSeq (XStar not_space) (lit (s2t ".ts") (XSeq XBound (group2 (XStar dot))))).
Definition plainly (r : rx) : rx := r.
Definition captures_all (r : rx) (t : text) : option text :=
  match m word r None t None (fun _ rest cap => match rest with [] => Some cap | _ => None end) with
  | Some (Some x) => Some x
  | _ => None
  end.
(** 232-233 [MOCHA_RE], [VITEST_RE]: [w] (made of word characters at both ends) between word boundaries, somewhere. *)
Fixpoint has_word (w : text) (prev : option char) (t : text) : bool :=
  (negb (is_word word prev) && match strip_prefix w t with Some r => negb (is_word word (hd_char r)) | None => false end)
  || match t with [] => false | c :: r => has_word w (Some c) r end.
(** 235-258 [parse_test_value]; [None] in the argument: the value is not a string. *)
Definition parse_test_value (value : option text) : res anchor_error (runner * text * text) :=
  match value with
  | None => Err NotAString
  | Some s =>
    match captures_all (test_re XCap plainly) s, captures_all (test_re plainly XCap) s with
    | Some prefix, Some suffix =>
      if has_word (s2t "mocha") None prefix || has_word (s2t "ts-mocha") None prefix then Ok (Mocha, prefix, suffix)
      else if has_word (s2t "vitest") None prefix then Ok (Vitest, prefix, suffix)
      else Err UnknownRunner
    | _, _ => Err Unparsable
    end
  end.

(** ** Documents (crate toml_edit) *)
Context {D : Type} (parse_toml : text -> option D) (render : D -> text)
        (test_script : D -> option (option text))         (* scripts.test: Some None, if it is a value but not a string *)
        (set_test_script : D -> text -> D).

(** 25-33: what [Anchor::new] keeps. *)
Record anchor := Anchor { an_document : D; an_runner : runner; an_prefix : text; an_suffix : text }.
(** 40-55 [new] with 207-223 [edit_test_script]; [contents]: of Anchor.toml, None if it cannot be read. *)
Definition anchor_new (contents : option text) : res anchor_error anchor :=
  match contents with
  | None => Err CannotRead
  | Some t =>
    match parse_toml t with
    | None => Err NotToml
    | Some d =>
      match test_script d with
      | None => Err NoTestScript
      | Some value => bind (parse_test_value value) (fun x => let '(r, p, s) := x in Ok (Anchor d r p s))
      end
    end
  end.

(** ** Running *)
(** State: contents of Anchor.toml, and the commands "anchor test" started so far (newest first) with the contents they found. *)
Record aworld := AW { aw_toml : text; aw_runs : list text }.

(** What happens to an attempt to patch Anchor.toml and run a command. *)
Record attempt := Attempt {
  at_backup : bool;              (* [Backup::new] works *)
  at_write : option text;        (* None: the write works; Some x: it fails, leaving [x] *)
  at_start : bool;               (* the command can be started *)
  at_success : bool;             (* its exit status *)
  at_left : text                 (* what it leaves in Anchor.toml *)
}.

Definition drop_backup (saved : text) (w : aworld) : aworld := AW saved (aw_runs w).
(** The command [command_to_run_test] (260-267) runs. *)
Definition run_command (a : attempt) (w : aworld) : aworld :=
  if at_start a then AW (at_left a) (aw_toml w :: aw_runs w) else w.

Definition absolute (p : path) : text := SLASH :: join_path p.
Definition VITEST_COMMAND_SUFFIX : text := s2t " --bail=1 --reporter=json".      (* ts/vitest.rs:12 *)
(** 184-188. *)
Definition extra_args (r : runner) (check : bool) : text :=
  match r, check with
  | Mocha, true => s2t " --dry-run"
  | Mocha, false => []
  | Vitest, _ => VITEST_COMMAND_SUFFIX
  end.
Definition patched (an : anchor) (source : path) (check : bool) : text :=
  render (set_test_script (an_document an) (an_prefix an ++ absolute source ++ an_suffix an ++ extra_args (an_runner an) check)).

(** 178-205 [patch_anchor_toml]: the backup, if it works. *)
Definition patch_anchor_toml (an : anchor) (source : path) (check : bool) (a : attempt) (w : aworld) : aworld * res anchor_error text :=
  if at_backup a then
    let backup := aw_toml w in
    match at_write a with
    | Some x => (drop_backup backup (AW x (aw_runs w)), Err CannotWrite)
    | None => (AW (patched an source check) (aw_runs w), Ok backup)
    end
  else (w, Err NoBackup).

(** 161-176 [check]. *)
Definition check (an : anchor) (source : path) (a : attempt) (w : aworld) : aworld * res anchor_error unit :=
  match patch_anchor_toml an source true a w with
  | (w, Ok backup) =>
    let w := run_command a w in
    (drop_backup backup w, if at_start a && at_success a then Ok tt else Err CommandFailed)
  | (w, Err e) => (w, Err e)
  | (w, Panic) => (w, Panic)
  end.

(** 97-108 [dry_run].  [extract]: the messages can be extracted from the output (ts/inner/mod.rs:111). *)
Definition dry_run (an : anchor) (source : path) (install : bool) (a1 a2 : attempt) (extract : bool) (w : aworld) : aworld * res anchor_error unit :=
  if install then
    match check an source a1 w with
    | (w, Ok _) =>
      match patch_anchor_toml an source false a2 w with
      | (w, Ok backup) =>
        let w := run_command a2 w in
        (drop_backup backup w, if at_start a2 && at_success a2 then (if extract then Ok tt else Err ExtractFailed) else Err CommandFailed)
      | (w, Err e) => (w, Err e)
      | (w, Panic) => (w, Panic)
      end
    | (w, r) => (w, r)
    end
  else (w, Err InstallFailed).

(** 123-125 [build_source_file]. *)
Definition build_source_file := check.

(** 127-158 [exec].  [Ok (Some backup)]: an execution whose postprocessing owns the backup; [Ok None]: the inner error.
    [inner] is the answer of ts/inner/mod.rs:129-172 (see [M_Exec.it_exec]). *)
Definition exec (an : anchor) (source : path) (a1 a2 : attempt) (inner : res anchor_error (option unit)) (w : aworld)
  : aworld * res anchor_error (option text) :=
  match check an source a1 w with
  | (w, Ok _) =>
    match patch_anchor_toml an source false a2 w with
    | (w, Ok backup) =>
      match inner with
      | Ok (Some _) => (w, Ok (Some backup))
      | Ok None => (drop_backup backup w, Ok None)
      | Err e => (drop_backup backup w, Err e)
      | Panic => (drop_backup backup w, Panic)
      end
    | (w, Err e) => (w, Err e)
    | (w, Panic) => (w, Panic)
    end
  | (w, Err _) => (w, Ok None)
  | (w, Panic) => (w, Panic)
  end.
(** core/src/core.rs:820-869 [perform_exec], as far as Anchor.toml is concerned: the command runs, unless it cannot be
    started or the resource limit cannot be set before; the postprocessing is called or not, and either way dropped. *)
Definition perform (a : attempt) (backup : text) (w : aworld) : aworld := drop_backup backup (run_command a w).

(** ** What the core can do with the back end *)
Inductive aop :=
| ADryRun (source : path) (install : bool) (a1 a2 : attempt) (extract : bool)
| ABuild (source : path) (a : attempt)
| AExec (source : path) (a1 a2 : attempt) (inner : res anchor_error (option unit)).
Definition astep (an : anchor) (op : aop) (w : aworld) : aworld :=
  match op with
  | ADryRun source install a1 a2 extract => fst (dry_run an source install a1 a2 extract w)
  | ABuild source a => fst (build_source_file an source a w)
  | AExec source a1 a2 inner =>
    match exec an source a1 a2 inner w with
    | (w, Ok (Some backup)) => perform a2 backup w
    | (w, _) => w
    end
  end.
Fixpoint asteps (an : anchor) (ops : list aop) (w : aworld) : aworld :=
  match ops with [] => w | op :: r => asteps an r (astep an op w) end.
End Parse.
