(** C83: options that concern the output, or whether there is a database, do not change what is tested and found. *)
From Verif Require Import Base M_Text M_Rewriter M_Span S_Span M_Instr M_Run S_Run L_Run L_RunFinal L_Total L_Unique P_Run
  M_Output S_Output L_Output P_Output M_Sqlite P_Sqlite M_Options P_Options M_Config M_Main P_Main P_EndToEnd M_Console L_Console P_Console S_Indep L_Indep.
From Verif Require M_Skill P_Skill.
From Coq Require Import List.
Local Open Scope list_scope.

(** ** Runs *)
(** A run with a new database and the same run without one, as long as nothing goes wrong with the database: the same ends the same way, the same files
    are on disk, and the same has happened in the same order, but for the insertions. *)
Theorem C83_run_without_database : forall hash16 contents o files fs, database_blind o ->
  let stored := run_from hash16 contents o files fs (Some []) in
  let plain := run_from hash16 contents o files fs None in
  snd stored <> Err DbFailed -> snd stored <> Err TextFailed -> snd stored <> Panic ->
  snd plain = snd stored /\ w_trace (fst plain) = unstored (w_trace (fst stored)) /\ w_fs (fst plain) = w_fs (fst stored) /\
  w_progress (fst plain) = w_progress (fst stored) /\ consoles (w_trace (fst plain)) = consoles (w_trace (fst stored)) /\ runs (w_trace (fst plain)) = runs (w_trace (fst stored)).
Proof.
  intros hash16 contents o files fs BL stored plain N1 N2 N3.
  pose proof (gw_run hash16 contents o BL files [] (start fs (Some []))) as G. change (run hash16 contents o files [] (start fs (Some []))) with stored in G.
  change (run hash16 contents o files [] (bare (start fs (Some [])))) with plain in G. clearbody stored plain.
  rewrite G by (destruct (snd stored) as [|[]|]; cbn; try exact I; congruence). cbn [fst snd bare w_trace w_fs w_progress].
  repeat (split; [reflexivity|]). split.
  - unfold consoles, unstored. rewrite <- !flat_map_concat_map || idtac. induction (w_trace (fst stored)) as [|e tr IH]; [reflexivity|]. cbn [filter rev]. destruct e; cbn [negb is_insert]; cbn [rev]; rewrite ?flat_map_app, ?IH; cbn; rewrite ?app_nil_r; reflexivity.
  - unfold runs, unstored. induction (w_trace (fst stored)) as [|e tr IH]; [reflexivity|]. cbn [filter rev]. destruct e; cbn [negb is_insert]; cbn [rev]; rewrite ?flat_map_app, ?IH; cbn; rewrite ?app_nil_r; reflexivity.
Qed.
Print Assumptions C83_run_without_database.

Lemma println_light po a t : exists l, println (light_context po) a t = Some l.
Proof. unfold println, light_context. destruct (po_quiet po); cbn; eauto. Qed.
Lemma dump_light v po rs : exists l, dump v (light_context po) rs = Some l.
Proof. rewrite dump_spec by (exists po; left; reflexivity). eauto. Qed.
Lemma counts_light v po files : exists l, dump_candidate_counts v (light_context po) files = Some l.
Proof.
  unfold dump_candidate_counts. generalize (count_sort (map file_count files)) as cs. intros cs. generalize (list_max (map (fun c => length (print_usize (fst c))) cs)). intros wd.
  induction cs as [|c cs [l IH]]; [eexists; reflexivity|]. cbn [fold_right]. rewrite IH. destruct (println_light po (ACount (snd c)) (right_align wd (print_usize (fst c)) ++ 32%N :: console_path v (snd c))) as [l' ->]. eexists; reflexivity.
Qed.
Lemma spans_light v po contents ss : (exists l, fst (dump_spans v (light_context po) contents ss) = Some l) \/ snd (dump_spans v (light_context po) contents ss) = Panic.
Proof.
  induction ss as [|s ss IH]; [left; eexists; reflexivity|]. cbn [dump_spans]. destruct (source_text _ s) as [t|e|]; [|left; eexists; reflexivity|right; reflexivity].
  match goal with |- context [println ?x ?a ?m] => destruct (println_light po a m) as [l' ->] end. destruct (dump_spans v (light_context po) contents ss) as [l r]. cbn [fst snd] in *. destruct IH as [[l'' ->]| ->]; [left; eexists; reflexivity|right; reflexivity].
Qed.
Lemma spans_same v po po' contents ss : snd (dump_spans v (light_context po) contents ss) = snd (dump_spans v (light_context po') contents ss).
Proof.
  induction ss as [|s ss IH]; [reflexivity|]. cbn [dump_spans]. destruct (source_text _ s) as [t|e|]; [|reflexivity|reflexivity].
  repeat match goal with |- context [println (light_context ?q) ?a ?m] => destruct (println_light q a m) as [? ->] end.
  destruct (dump_spans v (light_context po) contents ss), (dump_spans v (light_context po') contents ss). exact IH.
Qed.

(** ** Invocations *)
Section Main.
Context {V : Type} (yaml : text -> option M_Skill.header) (semver : text -> option V) (vcmp : V -> V -> comparison)
        (vshow : V -> text) (pshow : path -> text) (builtin_skill : text) (builtin_version : V).
Context (hash16 : text -> text) (default_toml : text).
Notation invoke := (necessist yaml semver vcmp vshow pshow builtin_skill builtin_version hash16 default_toml).
Notation exit g o sel k := (exit_code (invoke g o sel k)).

(** Whatever the options on the output: the same states of the disk, the same run with the same removals tested and the same outcomes, the same exit code. *)
Theorem C83_output : forall g o o' sel k, acceptable o -> acceptable o' -> same_but_output o o' ->
  a_states (invoke g o' sel k) = a_states (invoke g o sel k) /\ a_trace (invoke g o' sel k) = a_trace (invoke g o sel k) /\ exit g o' sel k = exit g o sel k.
Proof.
  intros g o o' sel k A A' D. apply accepted_iff in A, A'. unfold necessist. rewrite A, A'. clear A A'.
  destruct o as [a1 a2 a3 a4 a5 a6 a7 a8 a9 a10 a11 a12 a13 a14 a15 a16 a17 a18 a19 a20], o' as [b1 b2 b3 b4 b5 b6 b7 b8 b9 b10 b11 b12 b13 b14 b15 b16 b17 b18 b19 b20]; unfold same_but_output in D; cbn [op_allow op_check_skill op_default_config op_deny op_dump op_dump_candidate_counts op_dump_candidates op_find_skill op_no_lines_or_columns op_no_local_functions op_no_sqlite op_quiet op_reset op_resume op_root op_timeout op_verbose op_write op_source_files op_args] in *.
  destruct D as (-> & -> & -> & -> & -> & -> & -> & -> & -> & -> & -> & -> & -> & -> & -> & ->).
  unfold prepare_and_run. cbn [op_allow op_check_skill op_default_config op_deny op_dump op_dump_candidate_counts op_dump_candidates op_find_skill op_no_lines_or_columns op_no_local_functions op_no_sqlite op_quiet op_reset op_resume op_root op_timeout op_verbose op_write op_source_files op_args].
  unfold print_opts_of. cbn [op_allow op_deny op_quiet op_verbose op_no_lines_or_columns].
  match goal with |- context [light_context ?q] => set (po := q) end. match goal with |- context [light_context (PrintOpts ?a ?b ?c ?d ?e)] => set (po' := PrintOpts a b c d e) end.
  clearbody po po'.
  match goal with |- context [match ?c with Some p => _ | None => _ end] => destruct c; [repeat split|] end.
  match goal with |- context [if ?c then _ else match g_root _ _ with _ => _ end] => destruct c; [repeat split|] end.
  destruct (g_root g _) as [root|]; [|repeat split]. destruct (negb (g_lock g root)); [repeat split|].
  unfold denied at 1 3 5. cbn [op_deny].
  destruct (b10 && _); [repeat split|]. destruct b3; [repeat split|]. destruct (read_config g k) as [c|e|]; [|repeat split|repeat split].
  destruct b5.
  { match goal with |- context [if b11 then ?x else open_db g ?o k] => set (R := if b11 then x else open_db g o k) end.
    repeat match goal with |- context [if b11 then ?x else open_db g ?o k] => change (if b11 then x else open_db g o k) with R end.
    destruct R as [st [past|e|]]; [|repeat split|repeat split]. cbn [a_states a_trace].
    destruct (dump_light (g_env g) po (sort_removals past)) as [l ->], (dump_light (g_env g) po' (sort_removals past)) as [l' ->]. repeat split. }
  destruct (choose_framework (g_exists g) sel) as [f|e|]; [|repeat split|repeat split]. destruct (negb _); [repeat split|].
  destruct (canonicalize_source_files _ root b19) as [ps|e|]; [|repeat split|repeat split]. destruct (g_parse g f c ps (k_src k)) as [[n files]|e|]; [|repeat split|repeat split].
  destruct b7.
  { unfold dump_candidates. set (ss := flat_map _ files). pose proof (spans_light (g_env g) po (k_src k) ss) as L. pose proof (spans_light (g_env g) po' (k_src k) ss) as L'.
    pose proof (spans_same (g_env g) po po' (k_src k) ss) as Q. destruct (dump_spans (g_env g) (light_context po) _ ss) as [l r], (dump_spans (g_env g) (light_context po') _ ss) as [l' r']. cbn [fst snd] in *. subst r'.
    destruct r as [u|e|]; [| |destruct l, l'; repeat split]; destruct L as [[m ->]|L], L' as [[m' ->]|L']; try discriminate; repeat split. }
  destruct b6.
  { destruct (counts_light (g_env g) po files) as [l ->], (counts_light (g_env g) po' files) as [l' ->]. repeat split. }
  repeat split.
Qed.

Lemma blind_of g o : database_blind (g_oracle g) -> database_blind (oracle_of g o).
Proof. intros [B1 B2 B3 B4 B5 B6 B7 B8]. constructor; assumption. Qed.

Lemma main_plain g o o' files k : k_db k = None -> database_blind (g_oracle g) -> op_deny o = op_deny o' -> op_no_sqlite o = false -> op_no_sqlite o' = true -> op_dump o = false ->
  let a := main_run hash16 g o files k in let a' := main_run hash16 g o' files k in
  a_end a = Ok true ->
  a_end a' = Ok true /\ a_trace a' = unstored (a_trace a) /\ k_src (final k a') = k_src (final k a) /\ k_db (final k a') = None.
Proof.
  intros DB BL DE NS NS' ND a a' E.
  assert (H : g_handler g = true) by (destruct (g_handler g) eqn:H; [reflexivity|]; exfalso; revert E; unfold a, main_run; rewrite H; discriminate).
  assert (OO : oracle_of g o' = oracle_of g o) by (unfold oracle_of, denied_in_run, denied; rewrite DE; reflexivity).
  assert (A' : a' = let x := run_from hash16 (k_src k) (oracle_of g o) files (k_src k) None in
    Answer [with_src (w_fs (fst x)) k] (w_trace (fst x)) (Some []) (match snd x with Ok _ => Ok true | Err _ => Err tt | Panic => Panic end)).
  { unfold a', main_run. rewrite H, NS', OO. cbn [negb]. destruct (run_from hash16 _ _ _ _ _) as [w r]. reflexivity. }
  clearbody a'. subst a'. revert E. subst a. destruct (run_shape_of hash16 g o files k ND) as [r X|r _ DB' X|r rows _ DB' RS' X|NS2 x|states past NS2 ST R1 R2 R3 R4 R5 x]; cbn [a_end].
  1-3: destruct X as [-> | ->]; discriminate. { congruence. }
  intros E. subst x. rewrite (R5 (or_intror DB)) in *.
  assert (K : snd (run_from hash16 (k_src k) (oracle_of g o) files (k_src k) (Some [])) = Ok tt) by (destruct (snd _) as [[]| |]; [reflexivity|discriminate|discriminate]).
  pose proof (C83_run_without_database hash16 (k_src k) (oracle_of g o) files (k_src k) (blind_of g o BL)) as R. cbv zeta in R. rewrite K in R.
  destruct (R ltac:(discriminate) ltac:(discriminate) ltac:(discriminate)) as [Q1 [Q2 [Q3 _]]]. cbv zeta. unfold final. cbn [a_end a_trace a_states]. rewrite Q1, last_last. repeat split; [exact Q2|cbn; exact Q3|exact DB].
Qed.

(** A complete run in a project without a database, and the same run with --no-sqlite (whatever the options on the output): it is complete as well, in
    the same way, but for the insertions; the source files are left the same; and there is still no database. *)
Theorem C83_no_sqlite : forall g o o' sel k, runs_tests o -> ~ given o no_sqlite -> given o' no_sqlite -> acceptable o' -> same_but_database o o' ->
  k_db k = None -> database_blind (g_oracle g) -> exit g o sel k = 0%N ->
  exit g o' sel k = 0%N /\ a_trace (invoke g o' sel k) = unstored (a_trace (invoke g o sel k)) /\
  k_src (final k (invoke g o' sel k)) = k_src (final k (invoke g o sel k)) /\ k_db (final k (invoke g o' sel k)) = None.
Proof.
  intros g o o' sel k RT NG G' AC' SD DB BL EX.
  assert (NS : op_no_sqlite o = false) by (destruct (op_no_sqlite o) eqn:Q; [destruct NG; exact Q|reflexivity]).
  assert (NS' : op_no_sqlite o' = true) by exact G'.
  assert (ND : op_dump o = false) by (apply runs_no_dump; exact RT).
  destruct SD as (D1 & D2 & D3 & D4 & D5 & D6 & D7 & D8 & D9 & D10 & D11 & D12 & D13 & D14 & D15).
  assert (PO : process_options o = Ok tt).
  { destruct (process_options o) as [[]|e|] eqn:PO; [reflexivity| |]; exfalso; revert EX; unfold necessist; rewrite PO; discriminate. }
  apply accepted_iff in AC'. revert EX. unfold necessist. rewrite PO, AC'. rewrite <- D1, <- D7, <- D11, <- D8.
  destruct RT as [OL [SK DC]].
  destruct (op_check_skill o) eqn:CS; [destruct SK; left; cbn; congruence|]. destruct (op_find_skill o) eqn:FS; [destruct SK; right; exact FS|].
  destruct (g_root g (op_root o)) as [root|]; [|discriminate]. destruct (negb (g_lock g root)); [discriminate|].
  replace (denied o' WOptionDeprecated) with (denied o WOptionDeprecated) by (unfold denied; rewrite D3; reflexivity). destruct (op_no_local_functions o && _); [discriminate|].
  unfold prepare_and_run. rewrite <- D2, <- D4, <- D5, <- D6, <- D14, ND.
  destruct (op_default_config o) eqn:X; [destruct DC; exact X|]. destruct (read_config g k) as [c|e|]; [|discriminate|discriminate].
  destruct (choose_framework (g_exists g) sel) as [f|e|]; [|discriminate|discriminate]. destruct (negb _); [discriminate|].
  destruct (canonicalize_source_files _ root _) as [ps|e|]; [|discriminate|discriminate]. destruct (g_parse g f c ps (k_src k)) as [[n files]|e|]; [|discriminate|discriminate].
  destruct (op_dump_candidates o) eqn:X1; [destruct OL; right; left; exact X1|]. destruct (op_dump_candidate_counts o) eqn:X2; [destruct OL; right; right; exact X2|].
  intros EX. assert (E : a_end (main_run hash16 g o files k) = Ok true).
  { revert EX. unfold exit_code. destruct (a_end _) as [[]|e|]; try discriminate. reflexivity. }
  destruct (main_plain g o o' files k DB BL D3 NS NS' ND E) as [Q1 Q2]. split; [|exact Q2]. unfold exit_code. rewrite Q1. reflexivity.
Qed.
End Main.
Print Assumptions C83_output.
Print Assumptions C83_no_sqlite.

(** Non-vacuity. *)
Definition ex_loud : options :=
  Options [WAll] None false [] false false false false true false false false false false None None true false [] [].
Definition ex_unstored : options :=
  Options [] None false [] false false false false false false true true false false None None false false [] [].
Example C83_nonvacuous :
  let g := ex_setting ex_files_m ex_o in
  acceptable plain /\ acceptable ex_loud /\ same_but_output plain ex_loud /\ plain <> ex_loud /\
  runs_tests plain /\ given ex_unstored no_sqlite /\ acceptable ex_unstored /\ same_but_database plain ex_unstored /\
  k_db ex_start = None /\ database_blind (g_oracle g) /\ exit_code (ex_invoke g plain ex_start) = 0%N /\
  (length (a_trace (ex_invoke g plain ex_start)), length (a_trace (ex_invoke g ex_unstored ex_start))) = (30, 27) /\
  outcomes (final ex_start (ex_invoke g ex_loud ex_start)) = [s2t "failed"; s2t "passed"; s2t "passed"].
Proof.
  cbv zeta. split; [apply accepted_iff; reflexivity|]. split; [apply accepted_iff; reflexivity|]. split; [repeat split|]. split; [discriminate|].
  split; [apply ex_runs_tests|]. split; [reflexivity|]. split; [apply accepted_iff; reflexivity|]. split; [repeat split|]. split; [reflexivity|].
  split; [|repeat split; vm_compute; reflexivity]. cbn [g_oracle ex_setting]. constructor; intros; reflexivity.
Qed.
