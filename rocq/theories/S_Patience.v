(** Specification for C86: what a longer time limit may change. *)
From Verif Require Import Base M_Span M_Run S_Run M_Exec S_Exec.
From Verif Require M_Options.
Local Open Scope N_scope.

(** With [opt'], a test is given at least the time that it is given with [opt] (0: no limit; none given: 60 seconds). *)
Definition more_time (opt opt' : option N) : Prop := forall d', allowed opt' d' -> exists d, allowed opt d /\ d <= d'.

(** What comes of running a test without a candidate if it is let run: what the operating system does, and what the check of its output
    says.  It is the same in every run. *)
Record nature := Nature { n_system : span -> text -> os; n_check : span -> text -> option (res exec_error bool) }.

(** [b] is what is seen of that nature with the time limit [opt]. *)
Definition seen_with (opt : option N) (a : nature) (b : behaviour) : Prop :=
  forall s t, b_builds b s t = true -> exists l l' events,
    perform_exec opt (n_check a s t) (n_system a s t) l = Some (l', events, Ok (b_result b s t)).

(** Files that can be tested at all, and tests that build, do not depend on the time limit. *)
Definition same_builds (b b' : behaviour) : Prop :=
  (forall p, b_dry b' p = b_dry b p) /\ (forall s t, b_builds b' s t = b_builds b s t).

(** [rs'] is [rs], apart from removals that timed out in [rs]. *)
Definition same_but_time_outs (rs rs' : list removal) : Prop :=
  (forall r, In r rs -> rm_outcome r <> TimedOut -> In r rs') /\
  (forall r', In r' rs' -> In r' rs \/
     exists r, In r rs /\ rm_outcome r = TimedOut /\ rm_span r = rm_span r' /\ rm_text r = rm_text r').

(** Everything but the time limit is the same. *)
Definition same_but_timeout (o o' : M_Options.options) : Prop :=
  o' = M_Options.Options (M_Options.op_allow o) (M_Options.op_check_skill o) (M_Options.op_default_config o) (M_Options.op_deny o) (M_Options.op_dump o)
    (M_Options.op_dump_candidate_counts o) (M_Options.op_dump_candidates o) (M_Options.op_find_skill o) (M_Options.op_no_lines_or_columns o)
    (M_Options.op_no_local_functions o) (M_Options.op_no_sqlite o) (M_Options.op_quiet o) (M_Options.op_reset o) (M_Options.op_resume o) (M_Options.op_root o)
    (M_Options.op_timeout o') (M_Options.op_verbose o) (M_Options.op_write o) (M_Options.op_source_files o) (M_Options.op_args o).
