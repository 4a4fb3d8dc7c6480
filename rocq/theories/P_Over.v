(** C90: starting over is starting over: --reset on any table, --resume of an empty one, or a run where there is no database, give the same. *)
From Verif Require Import Base M_Text S_Text L_Text M_Rewriter M_Span S_Span L_Span P_Text M_Run S_Run L_Run P_Run
  M_Output S_Output L_Output M_Sqlite P_Sqlite M_Options P_Options M_Config P_Config M_Main P_Main S_Over.
From Verif Require M_Skill P_Skill.

Lemma open_over g o k : g_sql g = all_ok -> op_dump o = false -> starts_over o k ->
  exists states, open_db g o k = (states, Ok []) /\ last_disk states k = with_db (Some (Some [])) k.
Proof.
  intros Q D SO. unfold open_db, init, last_disk. rewrite Q, D. cbn [q_exists q_open q_drop q_create q_load all_ok negb].
  destruct SO as [E N|rows E R|E R]; rewrite E; unfold given in *.
  - destruct (op_reset o), (op_resume o); try rewrite N by auto; eexists; (split; [reflexivity|reflexivity]).
  - assert (H : op_reset o = true) by exact R. rewrite H. destruct (op_resume o); eexists; (split; [reflexivity|reflexivity]).
  - assert (H : op_resume o = true) by exact R. rewrite H. destruct (op_reset o); eexists; (split; [reflexivity|]); [reflexivity|].
    cbn. rewrite <- E at 1. symmetry. etransitivity; [|apply with_db_same]. rewrite E. reflexivity.
Qed.

Section Main.
Context {V : Type} (yaml : text -> option M_Skill.header) (semver : text -> option V) (vcmp : V -> V -> comparison)
        (vshow : V -> text) (pshow : path -> text) (builtin_skill : text) (builtin_version : V).
Context (hash16 : text -> text) (default_toml : text).
Notation invoke := (necessist yaml semver vcmp vshow pshow builtin_skill builtin_version hash16 default_toml).

(** C90: of two invocations that run tests, with the same options but for those about the rows that there are, on disks that differ
    only in the database, if both start over and the database engine works, then they run the same tests with the same removals and
    end in the same way; and they leave the same, the database included, unless both ended before they looked at the database. *)
Theorem C90_starting_over : forall g o o' sel k k', g_sql g = all_ok -> runs_tests o -> acceptable o -> acceptable o' -> ~ given o no_sqlite ->
  same_but_old_rows o o' -> same_but_rows k k' -> starts_over o k -> starts_over o' k' ->
  let a := invoke g o sel k in let a' := invoke g o' sel k' in
  a_trace a' = a_trace a /\ a_out a' = a_out a /\ a_end a' = a_end a /\
  (final k' a' = final k a \/ (a_states a = [] /\ a_states a' = [] /\ a_trace a = [] /\ a_end a <> Ok true)).
Proof.
  intros g o o' sel k k' Q RT AC AC' NS SB (SR & SC & SK) SO SO'. apply accepted_iff in AC, AC'. cbn zeta. destruct RT as (NL & NA & ND).
  assert (D : op_dump o = false /\ op_dump_candidates o = false /\ op_dump_candidate_counts o = false /\ op_check_skill o = None /\ op_find_skill o = false /\ op_default_config o = false /\ op_no_sqlite o = false).
  { unfold only_looks, about_skill, given in *. cbn in *. repeat split; try (apply Bool.not_true_is_false; tauto). destruct (op_check_skill o); [exfalso; apply NA; left; discriminate|reflexivity]. }
  destruct D as (D1 & D2 & D3 & D4 & D5 & D6 & D7).
  assert (D1' : op_dump o' = false) by (destruct SB as (_ & _ & _ & _ & H & _); congruence).
  destruct (open_over g o k Q D1 SO) as (st & OD & LD). destruct (open_over g o' k' Q D1' SO') as (st' & OD' & LD').
  assert (ER : forall y, y <> Ok true -> a_trace (done y) = a_trace (done y) /\ a_out (done y) = a_out (done y) /\ a_end (done y) = a_end (done y) /\
    (final k' (done y) = final k (done y) \/ (a_states (done y) = [] /\ a_states (done y) = [] /\ a_trace (done y) = [] /\ a_end (done y) <> Ok true))).
  { intros y H. repeat (split; [reflexivity|]). right. repeat (split; [reflexivity|]). exact H. }
  unfold necessist. rewrite AC, AC'. clear AC AC' NL NA ND.
  destruct SB as (B1 & B2 & B3 & B4 & B5 & B6 & B7 & B8 & B9 & B10 & B11 & B12 & B13 & B14 & B15 & B16 & B17 & B18).
  assert (DD : forall w, M_Main.denied o' w = M_Main.denied o w) by (intros w; unfold M_Main.denied; rewrite B4; reflexivity).
  rewrite B2, B8, B13, B10, DD, D4, D5. destruct (g_root g (op_root o)) as [root|]; [|apply ER; discriminate]. destruct (negb (g_lock g root)); [apply ER; discriminate|].
  destruct (op_no_local_functions o && _); [apply ER; discriminate|]. unfold prepare_and_run. rewrite B3, B5, B6, B7, B17, D6, D1, D2, D3.
  assert (RC : read_config g k' = read_config g k) by (unfold read_config; rewrite SC; reflexivity). rewrite RC, SR.
  destruct (read_config g k) as [c|e|]; [|apply ER; discriminate..]. destruct (choose_framework _ sel) as [f|e|]; [|apply ER; discriminate..].
  destruct (negb (g_construct g f)); [apply ER; discriminate|]. destruct (canonicalize_source_files _ root _) as [ps|e|]; [|apply ER; discriminate..].
  destruct (g_parse g f c ps (k_src k)) as [[n files]|e|]; [|apply ER; discriminate..].
  unfold main_run. destruct (negb (g_handler g)); [apply ER; discriminate|]. rewrite B11, D7, OD, OD', LD, LD'. cbn [with_db k_src]. rewrite SR.
  assert (OO : oracle_of g o' = oracle_of g o) by (unfold oracle_of, denied_in_run, M_Main.denied; rewrite B4; reflexivity). rewrite OO.
  destruct (run_from hash16 (k_src k) (oracle_of g o) files (k_src k) (Some [])) as [w r]. cbn [a_trace a_out a_end].
  repeat (split; [reflexivity|]). left. unfold final. cbn [a_states]. rewrite !last_last. unfold with_db, with_src. cbn [k_src k_config k_db k_skill]. rewrite SC, SK. reflexivity.
Qed.
End Main.
Print Assumptions C90_starting_over.

(** ** An example: a run where there is no database; then a second run of another outcome with --reset on the database that the first left, and
    --resume where there is none. *)
Definition ov_setting : setting := ex_setting ex_files_m ex_o.
Definition ov_first : disk := with_db (k_db (final ex_start (ex_invoke ov_setting plain ex_start))) ex_start.
Example C90_nonvacuous :
  g_sql ov_setting = all_ok /\ runs_tests plain /\ acceptable plain /\ acceptable with_reset /\ acceptable with_resume /\ ~ given plain no_sqlite /\
  same_but_old_rows plain with_reset /\ same_but_old_rows plain with_resume /\ same_but_rows ex_start ov_first /\
  starts_over plain ex_start /\ starts_over with_reset ov_first /\ starts_over with_resume ex_start /\
  length (rows_in (k_db ov_first)) = 3 /\
  length (rows_in (k_db (final ov_first (ex_invoke ov_setting with_reset ov_first)))) = 3 /\
  length (rows_in (k_db (final ex_start (ex_invoke ov_setting with_resume ex_start)))) = 3.
Proof.
  split; [reflexivity|]. split; [apply ex_runs_tests|]. do 3 (split; [apply accepted_iff; reflexivity|]). split; [discriminate|].
  do 2 (split; [repeat split|]). split; [repeat split|]. split; [apply over_missing; [reflexivity|intros _; reflexivity]|].
  split; [eapply over_reset; [vm_compute; reflexivity|reflexivity]|]. split; [apply over_missing; [reflexivity|intros _; reflexivity]|].
  split; [vm_compute; reflexivity|]. split; vm_compute; reflexivity.
Qed.
