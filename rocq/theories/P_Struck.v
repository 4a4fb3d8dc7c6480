(** C92: until it is interrupted, an interrupted run does what it would have done anyway, and it records nothing after that. *)
From Verif Require Import Base M_Text S_Text L_Text M_Rewriter M_Span S_Span L_Span P_Text M_Run S_Run L_Run P_Run
  M_Output S_Output L_Output M_Sqlite P_Sqlite M_Options P_Options M_Config P_Config M_Main P_Main S_Deny L_Deny S_Struck L_Struck.
From Verif Require M_Skill P_Skill.

(** ** The run *)

(** The same run; or one that did the same up to some moment, when the signal had come, and after that recorded nothing and ran tests with
    at most one removal. The rows it leaves are those that the other recorded first. *)
Theorem C92_run : forall hash16 contents x x' files fs db, paths_ok files -> interrupted x x' ->
  let a := run_from hash16 contents x files fs db in let a' := run_from hash16 contents x' files fs db in
  a' = a \/ struck_once x' (w_trace (fst a)) (w_trace (fst a')) /\ rows_before (w_db (fst a')) (w_db (fst a)).
Proof.
  intros hash16 contents x x' files fs db PO IN a a'. destruct (interrupted_run hash16 contents x x' files fs db IN) as [E|((before & after & L & T & H & N) & R)]; [left; exact E|right].
  split; [|exact R]. exists before, after. split; [exact L|]. split; [exact T|]. split; [exact H|]. split; [exact N|].
  exact (proj1 (proj2 (C12_ctrlc_stops hash16 contents x' files fs db PO (in_stays _ _ IN) before after T H))).
Qed.
Print Assumptions C92_run.

(** In particular: whatever the interrupted run reports on the console and records, the other reports and records, in the same order. *)
Theorem C92_nothing_new : forall hash16 contents x x' files fs db, interrupted x x' ->
  let tr := w_trace (fst (run_from hash16 contents x files fs db)) in let tr' := w_trace (fst (run_from hash16 contents x' files fs db)) in
  (exists more, inserts tr = inserts tr' ++ more) /\ (exists more, consoles tr = consoles tr' ++ more).
Proof.
  intros hash16 contents x x' files fs db IN tr tr'. unfold tr, tr'. clear tr tr'.
  destruct (interrupted_run hash16 contents x x' files fs db IN) as [E|((before & after & (l & L) & T & _ & N) & _)]; [rewrite E; split; exists []; symmetry; apply app_nil_r|].
  rewrite T, L. clear T L. unfold inserts, consoles. rewrite !rev_app_distr, !flat_map_app.
  assert (X : forall g : event -> list removal, (forall e, g e <> [] -> records e) -> flat_map g (rev after) = []).
  { intros g G. assert (Y : forall e, In e (rev after) -> g e = []).
    { intros e I. apply in_rev in I. destruct (g e) eqn:Q; [reflexivity|]. destruct (N e I). apply G. rewrite Q. discriminate. }
    induction (rev after) as [|e es IH]; [reflexivity|]. cbn. rewrite (Y e (or_introl eq_refl)). apply IH. intros e' I. apply Y. right. exact I. }
  rewrite (X insert_of), (X console_of), !app_nil_r; [split; eexists; reflexivity| |]; (intros e H; destruct e; cbn in *; try exact I; apply H; reflexivity).
Qed.
Print Assumptions C92_nothing_new.

(** ** Invocations *)
Section Main.
Context {V : Type} (yaml : text -> option M_Skill.header) (semver : text -> option V) (vcmp : V -> V -> comparison)
        (vshow : V -> text) (pshow : path -> text) (builtin_skill : text) (builtin_version : V).
Context (hash16 : text -> text) (default_toml : text).
Notation invoke := (necessist yaml semver vcmp vshow pshow builtin_skill builtin_version hash16 default_toml).

Definition cut_short (x' : oracle) (k : disk) (a a' : answer) : Prop :=
  a' = a \/ struck_once x' (a_trace a) (a_trace a') /\
    (k_db (final k a') = k_db (final k a) \/ exists rows more, has_rows (final k a') rows /\ has_rows (final k a) (rows ++ more)).

Lemma main_cut g o x' files k : paths_ok files -> interrupted (g_oracle g) x' ->
  cut_short x' k (main_run hash16 g o files k) (main_run hash16 (with_oracle x' g) o files k).
Proof.
  intros PO [S1 S2 S3 S4 S5 S6 S7 S8 S9 S10 S11 S12]. set (g' := with_oracle x' g).
  assert (IN : interrupted (oracle_of g o) (oracle_of g' o)) by (constructor; cbn; auto).
  unfold main_run. change (g_handler g') with (g_handler g). destruct (negb (g_handler g)); [left; reflexivity|].
  assert (SO : forall l s, struck_once (oracle_of g' o) l s -> struck_once x' l s) by (intros l s H; exact H).
  destruct (op_no_sqlite o).
  - destruct (C92_run hash16 (k_src k) _ _ files (k_src k) None PO IN) as [E|(T & D)]; [rewrite E; left; reflexivity|].
    destruct (run_from hash16 (k_src k) (oracle_of g o) files (k_src k) None) as [w r], (run_from hash16 (k_src k) (oracle_of g' o) files (k_src k) None) as [w' r'].
    right. split; [exact (SO _ _ T)|]. left. reflexivity.
  - change (open_db g' o k) with (open_db g o k). destruct (open_db g o k) as [st [past|e|]]; [|left; reflexivity..]. set (k1 := last_disk st k).
    destruct (C92_run hash16 (k_src k1) _ _ files (k_src k1) (Some past) PO IN) as [Q|(T & D)]; [rewrite Q; left; reflexivity|].
    destruct (run_from hash16 (k_src k1) (oracle_of g o) files (k_src k1) (Some past)) as [w r] eqn:W, (run_from hash16 (k_src k1) (oracle_of g' o) files (k_src k1) (Some past)) as [w' r'] eqn:W'.
    right. split; [exact (SO _ _ T)|]. right. unfold has_rows, M_Main.final. cbn [a_states]. rewrite !last_last. cbn [with_db k_db].
    set (old := match k_db k1 with Some (Some rows) => rows | _ => [] end).
    assert (PR : rows_before (Some past) (w_db w')).
    { pose proof (ok_grows _ _ (ok_run hash16 (k_src k1) _ _ (stricter_refl (oracle_of g' o)) files (past_of (Some past))) (start (k_src k1) (Some past))) as G.
      change (run hash16 (k_src k1) (oracle_of g' o) files (past_of (Some past)) (start (k_src k1) (Some past))) with (run_from hash16 (k_src k1) (oracle_of g' o) files (k_src k1) (Some past)) in G.
      rewrite W' in G. exact (proj2 G). }
    cbn [fst] in D. destruct (w_db w') as [rows'|]; [|destruct PR]. destruct PR as (new & ->). destruct (w_db w) as [rows|]; [|destruct D]. destruct D as (more & ->).
    change (to_row g') with (to_row g).
    exists (old ++ map (to_row g) new), (map (to_row g) more). rewrite <- app_assoc, !skipn_app, skipn_all, Nat.sub_diag. cbn [skipn app].
    split; [reflexivity|]. rewrite map_app, app_assoc. reflexivity.
Qed.

(** C92: an invocation with Ctrl-C at some moment does exactly what the same one does without; or it did so up to the moment, and after that recorded
    nothing and ran tests with at most one removal. The rows it leaves are those that the other recorded first. *)
Theorem C92_invocation : forall g o x' sel k, parses_well g -> interrupted (g_oracle g) x' ->
  let a := invoke g o sel k in let a' := invoke (with_oracle x' g) o sel k in
  a' = a \/ struck_once x' (a_trace a) (a_trace a') /\
    (k_db (final k a') = k_db (final k a) \/ exists rows more, has_rows (final k a') rows /\ has_rows (final k a) (rows ++ more)).
Proof.
  intros g o x' sel k PW IN. cbn zeta. change (cut_short x' k (invoke g o sel k) (invoke (with_oracle x' g) o sel k)). set (g' := with_oracle x' g).
  unfold necessist. destruct (process_options o) as [u|e|]; [|left; reflexivity..].
  destruct (op_check_skill o) as [c|]; [left; reflexivity|]. destruct (op_find_skill o); [left; reflexivity|].
  change (g_root g' (op_root o)) with (g_root g (op_root o)). destruct (g_root g (op_root o)) as [root|]; [|left; reflexivity].
  change (g_lock g' root) with (g_lock g root). destruct (negb (g_lock g root)); [left; reflexivity|].
  destruct (op_no_local_functions o && M_Main.denied o WOptionDeprecated); [left; reflexivity|].
  unfold prepare_and_run. destruct (op_default_config o); [left; reflexivity|].
  change (read_config g' k) with (read_config g k). destruct (read_config g k) as [c|e|]; [|left; reflexivity..].
  destruct (op_dump o); [left; reflexivity|].
  change (g_exists g') with (g_exists g). destruct (choose_framework (g_exists g) sel) as [f|e|]; [|left; reflexivity..]. change (g_construct g' f) with (g_construct g f). destruct (negb _); [left; reflexivity|].
  change (g_canon g') with (g_canon g). destruct (canonicalize_source_files (g_canon g) root _) as [ps|e|]; [|left; reflexivity..].
  change (g_parse g') with (g_parse g). destruct (g_parse g f c ps (k_src k)) as [[n fs]|e|] eqn:P; [|left; reflexivity..].
  destruct (op_dump_candidates o); [left; reflexivity|]. destruct (op_dump_candidate_counts o); [left; reflexivity|].
  apply main_cut; [exact (PW _ _ _ _ _ _ P)|exact IN].
Qed.
End Main.
Print Assumptions C92_invocation.

(** ** An example: the signal comes while a test runs with the second removal, and makes the test fail. Nothing is recorded for that removal,
    and one of three rows is left. *)
Definition st_oracle : oracle :=
  let x := ex_o_ctrlc in
  Oracle (o_dry_run x) (o_ctrlc x) (o_denied x) (o_backup_ok x) (o_extra x) (o_guard x) (o_write x) (o_build x) (o_exec x)
    (fun tr t s => if o_ctrlc x tr then Ok XFailed else o_perform x tr t s) (o_db_ok x).
Definition st_setting : setting := ex_setting ex_files_m ex_o.
Definition st_cut : answer := ex_invoke (with_oracle st_oracle st_setting) plain ex_start.
Example C92_nonvacuous :
  parses_well st_setting /\ interrupted (g_oracle st_setting) st_oracle /\
  (a_end (ex_invoke st_setting plain ex_start), length (inserts (a_trace (ex_invoke st_setting plain ex_start)))) = (Ok true, 3) /\
  (a_end st_cut, length (inserts (a_trace st_cut)), length (runs (a_trace st_cut)), length (rows_in (k_db (final ex_start st_cut)))) = (Err tt, 1, 3, 1).
Proof.
  split; [intros f c ps src n files E; cbn in E; injection E as <- <-; exact ex_paths_ok_m|]. split; [|split; vm_compute; reflexivity].
  constructor; try reflexivity; [exact (proj1 C12_nonvacuous)|]. intros tr t s H. change (o_ctrlc ex_o_ctrlc tr = false) in H. cbn [st_oracle o_perform]. rewrite H. reflexivity.
Qed.

(** ** How it ends *)

(** An interrupted run need not end with the error that says so. Necessist builds a test before it runs it, and takes for granted that
    this goes well if the removal is one by instrumentation (the assertion at core/src/core.rs:406): if Ctrl-C stops that very build,
    necessist panics, with a message that says that the instrumentation failed to build. *)
Definition st_build_oracle : oracle :=
  let x := ex_o_ctrlc in
  Oracle (o_dry_run x) (o_ctrlc x) (o_denied x) (o_backup_ok x) (o_extra x) (o_guard x) (o_write x) (o_build x)
    (fun tr t s => if o_ctrlc x tr then Ok None else o_exec x tr t s) (o_perform x) (o_db_ok x).
Theorem C92_ends_with_ctrlc_refuted :
  ~ (forall hash16 contents x x' files fs db, project files -> interrupted x x' -> snd (run_from hash16 contents x files fs db) = Ok tt ->
     snd (run_from hash16 contents x' files fs db) = Ok tt \/ exists e, snd (run_from hash16 contents x' files fs db) = Err e).
Proof.
  intros H. destruct (H ex_hash ex_disk ex_o st_build_oracle ex_files ex_disk (Some []) ex_project) as [E|[e E]].
  - constructor; try reflexivity; [exact (proj1 C12_nonvacuous)|]. intros tr t s C. change (o_ctrlc ex_o_ctrlc tr = false) in C. cbn [st_build_oracle o_exec]. rewrite C. reflexivity.
  - vm_compute. reflexivity.
  - assert (P : snd (run_from ex_hash ex_disk st_build_oracle ex_files ex_disk (Some [])) = Panic) by (vm_compute; reflexivity). congruence.
  - assert (P : snd (run_from ex_hash ex_disk st_build_oracle ex_files ex_disk (Some [])) = Panic) by (vm_compute; reflexivity). congruence.
Qed.
Print Assumptions C92_ends_with_ctrlc_refuted.
