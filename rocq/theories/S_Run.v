(** Specification vocabulary for the run loop. *)
From Verif Require Import Base M_Text S_Text M_Rewriter M_Span S_Span M_Instr S_Instr M_Run.

(** [l] can be obtained from [l'] by deleting elements. *)
Inductive subseq {A} : list A -> list A -> Prop :=
| sub_nil : forall l, subseq [] l
| sub_keep : forall x l l', subseq l l' -> subseq (x :: l) (x :: l')
| sub_skip : forall x l l', subseq l l' -> subseq l (x :: l').

(** The candidates of all files, in the order of the run. *)
Definition all_cands (files : list (path * span_test_maps)) : list cand :=
  flat_map (fun f => stm_iter (snd f)) files.

(** Every candidate of a file has that file's path. *)
Definition paths_ok (files : list (path * span_test_maps)) : Prop :=
  forall p m c, In (p, m) files -> In c (stm_iter m) -> sp_path (c_span c) = p.

(** [past] is a moment of the run: the trace at that moment. *)
Definition moment (before now : trace) : Prop := exists later, now = later ++ before.

Section Spec.
Context (hash16 : text -> text) (contents : path -> text) (o : oracle).

(** During the run up to [now], test [t] of candidate [s] was run and ended as [x]. *)
Definition ran_with (now : trace) (s : span) (t : text) (x : exec_result) : Prop :=
  exists env fs before,
    moment (ERun s t env fs :: before) now /\ o_perform o (ERun s t env fs :: before) t s = Ok x.

(** ... the back end reported that it did not build. *)
Definition did_not_build (now : trace) (s : span) (t : text) : Prop :=
  exists fs before,
    moment (EExec s t fs :: before) now /\ o_exec o (EExec s t fs :: before) t s = Ok None.

(** ... the dry run of file [p] failed. *)
Definition dry_run_failed (now : trace) (p : path) : Prop :=
  exists fs before u, moment (EDryRun p fs :: before) now /\ o_dry_run o (EDryRun p fs :: before) p = Err u.

(** ... the dry run of file [p] succeeded. *)
Definition dry_run_ok (now : trace) (p : path) : Prop :=
  exists fs before, moment (EDryRun p fs :: before) now /\ o_dry_run o (EDryRun p fs :: before) p = Ok tt.

(** Outcome [x] of a candidate with tests [tests] is the right one, given what happened so far. *)
Definition justified (now : trace) (s : span) (tests : list text) (x : outcome) : Prop :=
  match x with
  | Passed => forall t, In t tests -> ran_with now s t XPassed
  | Failed => exists a t b, tests = a ++ t :: b /\
      (forall t', In t' a -> ran_with now s t' XPassed) /\ ran_with now s t XFailed
  | TimedOut => exists a t b, tests = a ++ t :: b /\
      (forall t', In t' a -> ran_with now s t' XPassed) /\ ran_with now s t XTimedOut
  | Nonbuildable => exists a t b, tests = a ++ t :: b /\
      (forall t', In t' a -> ran_with now s t' XPassed) /\ did_not_build now s t
  | Skipped => dry_run_failed now (sp_path s)
  end.

(** The disk [fs] differs from the original disk [fs0] in at most the file of [s], and
    there by the removal of exactly [s]: either its text is gone, or the file is instrumented
    with guards for a suffix [sts] of the file's statements that contains [s]. *)
Definition only_removed (fs0 fs : path -> text) (statements : list span) (s : span) : Prop :=
  (forall q, q <> sp_path s -> fs q = fs0 q) /\
  ((exists removed, remove_text (contents (sp_path s)) s = Some (removed, fs (sp_path s))) \/
   (exists extra pre sts, statements = pre ++ sts /\ In s sts /\
      (exists tr n, o_extra o tr (sp_path s) n = Ok extra) /\
      instrument (fun c => c) extra (fun x => match o_guard o x with Ok t => t | _ => [] end) end_text
        (contents (sp_path s)) sts = Some (fs (sp_path s)))).

End Spec.

(** Tests built (and then run, if they build), in order: (candidate, test). *)
Definition run_of (e : event) : list (span * text) :=
  match e with EExec s t _ => [(s, t)] | _ => [] end.
Definition runs (tr : trace) : list (span * text) := flat_map run_of (rev tr).
(** Rows inserted, in order. *)
Definition insert_of (e : event) : list removal :=
  match e with EInsert r => [r] | _ => [] end.
Definition inserts (tr : trace) : list removal := flat_map insert_of (rev tr).
(** Removals reported, in order. *)
Definition console_of (e : event) : list removal :=
  match e with EConsole r => [r] | _ => [] end.
Definition consoles (tr : trace) : list removal := flat_map console_of (rev tr).

(** Candidates with a test built since the Ctrl-C flag was last found clear. *)
Fixpoint since_poll (tr : trace) : list span :=
  match tr with
  | [] => []
  | EPoll :: _ => []
  | EExec s _ _ :: r => s :: since_poll r
  | _ :: r => since_poll r
  end.

(** Order of candidates and of past removals. *)
Definition span_lt (a b : span) : Prop := span_compare a b = Lt.
Fixpoint ascending (l : list span) : Prop :=
  match l with
  | a :: (b :: _) as r => span_lt a b /\ ascending r
  | _ => True
  end.

(** Candidate [c] could not be judged: one of its tests reported that it did not run. *)
Definition unjudged (o : oracle) (now : trace) (c : cand) : Prop :=
  exists t, In t (c_tests c) /\ ran_with o now (c_span c) t XNone.

(** [r] is the right row for candidate [c], given what happened. *)
Definition row_of (contents : path -> text) (o : oracle) (now : trace) (c : cand) (r : removal) : Prop :=
  rm_span r = c_span c /\
  source_text (contents (sp_path (c_span c))) (c_span c) = Ok (rm_text r) /\
  justified o now (c_span c) (c_tests c) (rm_outcome r).

(** Candidates are pairwise different, and so are the tests of each. *)
Definition distinct (files : list (path * span_test_maps)) : Prop :=
  NoDup (map c_span (all_cands files)) /\ forall c, In c (all_cands files) -> NoDup (c_tests c).

(** The signal, once arrived, stays arrived. *)
Definition arrives (o : oracle) : Prop :=
  forall a b, moment a b -> o_ctrlc o a = true -> o_ctrlc o b = true.

(** ** Resuming *)

(** What dry runs, builds and tests do, if they always do the same. *)
Record behaviour := Behaviour {
  b_dry : path -> bool;                      (* the dry run of a file succeeds *)
  b_builds : span -> text -> bool;           (* the test builds without the candidate *)
  b_result : span -> text -> exec_result     (* how the test then ends *)
}.

(** Oracle [o] behaves like [b] whenever it does not break off with an error or a panic.  Signals,
    failing writes, failing databases, denied warnings are not restricted. *)
Definition follows (b : behaviour) (o : oracle) : Prop :=
  (forall tr p, match o_dry_run o tr p with
                | Ok _ => b_dry b p = true | Err _ => b_dry b p = false | Panic => True end) /\
  (forall tr t s, match o_exec o tr t s with
                  | Ok (Some _) => b_builds b s t = true | Ok None => b_builds b s t = false | _ => True end) /\
  (forall tr t s, match o_perform o tr t s with Ok x => b_result b s t = x | _ => True end).

(** The outcome of a candidate: of its first test that does not pass, else passed; none if
    that test reports that it did not run. *)
Fixpoint verdict_tests (b : behaviour) (s : span) (tests : list text) : option outcome :=
  match tests with
  | [] => Some Passed
  | t :: rest =>
    if b_builds b s t then
      match b_result b s t with
      | XPassed => verdict_tests b s rest
      | XFailed => Some Failed
      | XTimedOut => Some TimedOut
      | XNone => None
      end
    else Some Nonbuildable
  end.
Definition verdict (b : behaviour) (c : cand) : option outcome :=
  if b_dry b (sp_path (c_span c)) then verdict_tests b (c_span c) (c_tests c) else Some Skipped.

(** [r] is the row of candidate [c]. *)
Definition is_row (contents : path -> text) (b : behaviour) (c : cand) (r : removal) : Prop :=
  rm_span r = c_span c /\
  source_text (contents (sp_path (c_span c))) (c_span c) = Ok (rm_text r) /\
  verdict b c = Some (rm_outcome r).

(** The rows of a database after it was created and then used by any number of runs,
    each under its own oracle and each stopped after any event (by Ctrl-C, by an
    error, or by a crash, after which the source files are put back). *)
Inductive history (hash16 : text -> text) (contents : path -> text) (files : list (path * span_test_maps))
  (fs : path -> text) (b : behaviour) : list removal -> Prop :=
| h_new : history hash16 contents files fs b []
| h_run : forall rows o tr, history hash16 contents files fs b rows -> follows b o ->
    moment tr (w_trace (fst (run_from hash16 contents o files fs (Some rows)))) ->
    history hash16 contents files fs b (rows ++ inserts tr).

(** Requirements on the candidates of a project. *)
Definition project (files : list (path * span_test_maps)) : Prop :=
  paths_ok files /\ distinct files /\
  forall c, In c (all_cands files) -> wf_span (c_span c) /\ c_tests c <> [].

(** Nothing goes wrong outside the tests: no signal, no denied warning, no failing disk or
    database, no back end error; an instrumented file that builds, builds for each of its
    statements' tests; candidates denote pieces of their files. *)
Record healthy (hash16 : text -> text) (contents : path -> text) (l : path -> lang)
  (files : list (path * span_test_maps)) (o : oracle) : Prop := {
  he_ctrlc : forall tr, o_ctrlc o tr = false;
  he_denied : forall w, o_denied o w = false;
  he_backup : forall tr p, o_backup_ok o tr p = true;
  he_extra : forall tr p n, exists ex, o_extra o tr p n = Ok ex /\
    forall m, In (p, m) files -> extra_before (contents p) ex (map fst (stm_statement m));
  he_guard : forall s, o_guard o s = Ok (guard_text (l (sp_path s)) (span_id hash16 s));
  he_write : forall tr p, o_write o tr p = None;
  he_dry : forall tr p, o_dry_run o tr p <> Panic;
  he_build : forall tr p, o_build o tr p <> Panic;
  he_exec : forall tr t s, exists x, o_exec o tr t s = Ok x;
  he_perform : forall tr t s, exists x, o_perform o tr t s = Ok x;
  he_db : forall tr, o_db_ok o tr = true;
  he_instrumented : forall tr p, o_build o tr p = Ok tt ->
    forall m s t tr', In (p, m) files -> In s (map fst (stm_statement m)) -> o_exec o tr' t s <> Ok None;
  he_scalars : forall p m, In (p, m) files -> scalars (contents p);
  he_layout : forall p m, In (p, m) files -> layout (contents p) (map fst (stm_statement m));
  he_denotes : forall c, In c (all_cands files) -> exists before mid after,
    between (contents (sp_path (c_span c))) (sp_start (c_span c)) (sp_end (c_span c)) before mid after
}.
