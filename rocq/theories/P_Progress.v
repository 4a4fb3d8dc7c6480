(** C63: an invocation fails only for a reason; denied warnings are such a reason. *)
From Verif Require Import Base M_Text S_Text L_Text M_Rewriter M_Span S_Span L_Span P_Text M_Instr S_Instr P_Instr M_Run S_Run L_Run L_RunFinal L_Resume L_History L_Total L_Unique L_Denied P_Run
  M_Output S_Output L_Output M_Sqlite P_Sqlite M_Options P_Options M_Config M_Main P_Main P_Resume.
From Verif Require M_Skill P_Skill.

Section Progress.
Context {V : Type} (yaml : text -> option M_Skill.header) (semver : text -> option V) (vcmp : V -> V -> comparison)
        (vshow : V -> text) (pshow : path -> text) (builtin_skill : text) (builtin_version : V)
        (hash16 : text -> text) (default_toml : text).
Notation invoke := (necessist yaml semver vcmp vshow pshow builtin_skill builtin_version hash16 default_toml).
Notation exit g o sel k := (exit_code (invoke g o sel k)).

(** ** Specification *)
(** The warning that an event of a run is about, if it is a warning. *)
Definition warning_of (e : event) : option warning :=
  match e with
  | EWarnChanged _ => Some WFilesChanged
  | EWarn DryRunFailed => Some WDryRunFailed
  | EWarn FilesChanged => Some WFilesChanged
  | EWarn InstrumentationNonbuildable => Some WInstrumentationNonbuildable
  | _ => None
  end.
(** The user has denied the warning, by name or with [--deny all]. *)
Definition denies (o : options) (w : warning) : Prop := In WAll (op_deny o) \/ In w (op_deny o).
Definition meets_denied (o : options) (tr : trace) : Prop := exists e w, In e tr /\ warning_of e = Some w /\ denies o w.
(** The database allows the run to start, without rows: it is not wanted, or it is not there yet, or it is to be reset. *)
Definition database_ready (g : setting) (o : options) (k : disk) : Prop :=
  given o no_sqlite \/
  (g_sql g = all_ok /\
   ((k_db k = None /\ (given o reset \/ given o resume -> ~ denies o WDatabaseDoesNotExist)) \/
    (exists rows, k_db k = Some (Some rows) /\ given o reset))).
(** The user gives no option whose deprecation is denied. *)
Definition nothing_deprecated (o : options) : Prop := op_no_local_functions o = true -> ~ denies o WOptionDeprecated.

(** ** Lemmas *)
Lemma denied_iff o w : M_Main.denied o w = true <-> denies o w.
Proof. unfold M_Main.denied, denies. rewrite orb_true_iff, !has_warning_in. reflexivity. Qed.
Lemma denied_false o w : ~ denies o w -> M_Main.denied o w = false.
Proof. intros H. destruct (M_Main.denied o w) eqn:E; [|reflexivity]. apply denied_iff in E. contradiction. Qed.
Lemma den_iff g o e : den (oracle_of g o) e <-> exists w, warning_of e = Some w /\ denies o w.
Proof.
  destruct e as [| | | | | |x|m| | | | |]; cbn [den warning_of oracle_of o_denied];
    try (split; [intros []|intros [w [H _]]; discriminate]).
  - destruct x; unfold denied_in_run; rewrite denied_iff; (split; [intros H; eexists; split; [reflexivity|exact H]|intros [w [E H]]; injection E as <-; exact H]).
  - unfold denied_in_run. rewrite denied_iff. split; [intros H; eexists; split; [reflexivity|exact H]|intros [w [E H]]; injection E as <-; exact H].
Qed.

Lemma prepared_runs g o sel k files : runs_tests o -> prepared g o sel k files -> nothing_deprecated o -> invoke g o sel k = main_run hash16 g o files k.
Proof.
  intros [NL [NS ND]] [AC [root [c [f [paths [n [R [L [[ST C] [CF [GC [SF GP]]]]]]]]]]]] DP.
  unfold necessist. apply accepted_iff in AC as PO. rewrite PO.
  destruct (op_check_skill o) eqn:CS; [destruct NS; left; unfold given; congruence|].
  destruct (op_find_skill o) eqn:FS; [destruct NS; right; exact FS|]. rewrite R, L. cbn [negb].
  assert (D : op_no_local_functions o && M_Main.denied o WOptionDeprecated = false).
  { unfold nothing_deprecated in DP. destruct (op_no_local_functions o); [|reflexivity]. cbn. apply denied_false, DP. reflexivity. }
  rewrite D. unfold prepare_and_run. destruct (op_default_config o) eqn:DC; [destruct ND; exact DC|].
  assert (RC : read_config g k = Ok c).
  { unfold read_config. rewrite ST. cbn [negb]. destruct (k_config k) as [t|]; [|congruence]. destruct C as [-> ->]. reflexivity. }
  rewrite RC. unfold only_looks, given in NL. destruct (op_dump o); [tauto|]. rewrite CF, GC. cbn [negb].
  apply C24_accepted_iff in SF. rewrite SF, GP. destruct (op_dump_candidates o); [tauto|]. destruct (op_dump_candidate_counts o); [tauto|]. reflexivity.
Qed.

Lemma init_ready g o k : runs_tests o -> op_no_sqlite o = false -> database_ready g o k ->
  exists states, open_db g o k = (states, Ok []) /\ k_src (last_disk states k) = k_src k.
Proof.
  intros RT NS [X|[Q H]]; [unfold given in X; congruence|]. unfold open_db. rewrite Q, (runs_no_dump o RT).
  destruct H as [[DB DN]|[rows [DB RS]]]; rewrite DB.
  - destruct (op_reset o) eqn:R1; [|destruct (op_resume o) eqn:R2].
    + rewrite (denied_false o _ (DN (or_introl R1))). cbn. eexists. split; reflexivity.
    + rewrite (denied_false o _ (DN (or_intror R2))). cbn. eexists. split; reflexivity.
    + cbn. eexists. split; reflexivity.
  - unfold given in RS. rewrite RS. cbn. eexists. split; reflexivity.
Qed.

(** What a run answers, once its database is open. *)
Lemma main_run_from g o files k : g_handler g = true ->
  (op_no_sqlite o = true -> let x := run_from hash16 (k_src k) (oracle_of g o) files (k_src k) None in
     a_trace (main_run hash16 g o files k) = w_trace (fst x) /\ (exit_code (main_run hash16 g o files k) = 0%N <-> snd x = Ok tt) /\
     (forall e, snd x = Err e -> exit_code (main_run hash16 g o files k) = 2%N)) /\
  (forall states past, op_no_sqlite o = false -> open_db g o k = (states, Ok past) -> k_src (last_disk states k) = k_src k ->
     let x := run_from hash16 (k_src k) (oracle_of g o) files (k_src k) (Some past) in
     a_trace (main_run hash16 g o files k) = w_trace (fst x) /\ (exit_code (main_run hash16 g o files k) = 0%N <-> snd x = Ok tt) /\
     (forall e, snd x = Err e -> exit_code (main_run hash16 g o files k) = 2%N)).
Proof.
  intros H. unfold main_run. rewrite H. cbn [negb]. split.
  - intros ->. cbv zeta. destruct (run_from _ _ _ _ _ _) as [w [[]|e|]]; cbn; (split; [reflexivity|]; split; [split; intros; congruence|]; intros; congruence).
  - intros states past -> -> S. cbv zeta. rewrite S. destruct (run_from _ _ _ _ _ _) as [w [[]|e|]]; cbn; (split; [reflexivity|]; split; [split; intros; congruence|]; intros; congruence).
Qed.

(** ** C63 *)
(** If the run is prepared (C56), its database is ready, and nothing goes wrong outside the tests, then the invocation succeeds
    unless it meets a warning that the user denied. *)
Theorem C63_succeeds : forall g o sel k files l, runs_tests o -> prepared g o sel k files -> nothing_deprecated o -> project files ->
  g_handler g = true -> database_ready g o k -> healthy hash16 (k_src k) l files (allowing (g_oracle g)) ->
  (exit g o sel k = 0%N <-> ~ meets_denied o (a_trace (invoke g o sel k))) /\
  (exit g o sel k = 0%N \/ exit g o sel k = 2%N).
Proof.
  intros g o sel k files l RT P ND PR GH DR HE. rewrite (prepared_runs g o sel k files RT P ND).
  destruct (main_run_from g o files k GH) as [M1 M2].
  assert (GEN : forall db, db = None \/ db = Some [] -> let x := run_from hash16 (k_src k) (oracle_of g o) files (k_src k) db in
    (a_trace (main_run hash16 g o files k) = w_trace (fst x) /\ (exit_code (main_run hash16 g o files k) = 0%N <-> snd x = Ok tt) /\
     (forall e, snd x = Err e -> exit_code (main_run hash16 g o files k) = 2%N)) ->
    (exit_code (main_run hash16 g o files k) = 0%N <-> ~ meets_denied o (a_trace (main_run hash16 g o files k))) /\
    (exit_code (main_run hash16 g o files k) = 0%N \/ exit_code (main_run hash16 g o files k) = 2%N)).
  { intros db D. cbv zeta. intros [ET [EX EE]]. rewrite ET.
    assert (OUT : snd (run_from hash16 (k_src k) (oracle_of g o) files (k_src k) db) = Ok tt \/ snd (run_from hash16 (k_src k) (oracle_of g o) files (k_src k) db) = Err WarnDenied).
    { destruct (run_from_allowing hash16 (k_src k) (oracle_of g o) files (k_src k) db) as [E|E]; [right; exact E|]. left. rewrite E.
      change (allowing (oracle_of g o)) with (allowing (g_oracle g)).
      destruct (run_healthy hash16 (k_src k) l files (allowing (g_oracle g)) HE (proj1 PR) (k_src k) db) as [K|K]; [exact K|].
      destruct (fresh_ok hash16 (k_src k) (allowing (g_oracle g)) files (k_src k) PR db D K) as [tr X]. rewrite (he_db _ _ _ _ _ HE tr) in X. discriminate. }
    pose proof (run_from_fine hash16 (k_src k) (oracle_of g o) files (k_src k) db) as F. cbv zeta in F.
    destruct OUT as [E|E]; rewrite E in F.
    - destruct F as [[F _]|[_ Q]]; [discriminate|]. apply EX in E. split; [|left; exact E]. split; [|intros _; exact E]. intros _ [e [w [I [W D']]]].
      apply (Q e I). apply den_iff. exists w. auto.
    - destruct F as [[_ [rs [e [pre [T [DE _]]]]]]|[F _]]; [|congruence]. pose proof (EE _ E) as X. split; [|right; exact X]. split; [rewrite X; discriminate|].
      intros N. exfalso. apply N. apply den_iff in DE as [w [W D']]. exists e, w. split; [rewrite T; apply in_or_app; right; left; reflexivity|]. auto. }
  destruct (op_no_sqlite o) eqn:NS; [apply (GEN None (or_introl eq_refl) (M1 eq_refl))|].
  destruct (init_ready g o k RT NS DR) as [states [OD LS]]. exact (GEN (Some []) (or_intror eq_refl) (M2 states [] eq_refl OD LS)).
Qed.

(** Whatever else happens: a denied warning makes the invocation fail, and after it nothing is done but to put files back. *)
Theorem C63_denied_ends : forall g o sel k after e before w, a_trace (invoke g o sel k) = after ++ e :: before ->
  warning_of e = Some w -> denies o w ->
  exit g o sel k = 2%N /\ forall x, In x after -> exists p, x = ERestore p.
Proof.
  intros g o sel k after e before w T W D.
  assert (NE : a_trace (invoke g o sel k) <> []) by (rewrite T; destruct after; discriminate).
  assert (GEN : forall files db, a_trace (invoke g o sel k) = w_trace (fst (run_from hash16 (k_src k) (oracle_of g o) files (k_src k) db)) ->
     (forall x, snd (run_from hash16 (k_src k) (oracle_of g o) files (k_src k) db) = Err x -> exit g o sel k = 2%N) -> 
     exit g o sel k = 2%N /\ forall x, In x after -> exists p, x = ERestore p).
  { intros files db ET EE. pose proof (run_from_fine hash16 (k_src k) (oracle_of g o) files (k_src k) db) as F. cbv zeta in F. rewrite <- ET, T in F.
    assert (DE : den (oracle_of g o) e) by (apply den_iff; eauto).
    destruct F as [[E [rs [e' [pre [X [_ [Q R]]]]]]]|[_ Q]]; [|exfalso; apply (Q e); [apply in_or_app; right; left; reflexivity|exact DE]].
    split; [exact (EE _ E)|]. intros x I.
    assert (RS : In x rs).
    { revert rs X R. clear T NE. induction after as [|a after IH]; [destruct I|]. intros rs X R. destruct rs as [|r rs]; cbn in X; injection X as <- X.
      - exfalso. apply (Q e); [rewrite <- X; apply in_or_app; right; left; reflexivity|exact DE].
      - destruct I as [<-|I]; [left; reflexivity|right; apply (IH I rs X)]. intros y Y. apply R. right. exact Y. }
    specialize (R x RS). destruct x; try destruct R. eauto. }
  revert GEN.
  destruct (shape_of yaml semver vcmp vshow pshow builtin_skill builtin_version hash16 default_toml g o sel k) as [|NS ND P|p AC CS|AC CS FS|AC DC CS FS|ln r AC LK N|files P R];
    try (exfalso; apply NE; reflexivity).
  - exfalso. apply NE. destruct (M_Skill.check _ _ _ _ _ _ _ _ _ _ _ _) as [[[f out] wr] r]. reflexivity.
  - exfalso. apply NE. destruct (M_Skill.find _ _ _ _ _ _ _ _ _ _ _) as [[f out] r]. reflexivity.
  - exfalso. apply NE. destruct (write_default_config _ _ _) as [st r]. reflexivity.
  - intros GEN. unfold main_run in *. destruct (g_handler g); cbn [negb] in *; [|exfalso; apply NE; reflexivity].
    destruct (op_no_sqlite o).
    { specialize (GEN files None). destruct (run_from _ _ _ _ _ _) as [w0 [[]|e'|]]; apply GEN; cbn; try reflexivity; intros; congruence. }
    assert (SRC : k_src (last_disk (fst (open_db g o k)) k) = k_src k).
    { unfold open_db. destruct (init _ _ _ _ _ _ _) as [states r]. cbn [fst]. unfold last_disk.
      generalize (tl states). clear. intros l. induction l as [|d l IH]; [reflexivity|]. cbn [map]. destruct l; [reflexivity|exact IH]. }
    destruct (open_db g o k) as [states [past|e'|]]; cbn [fst] in SRC; try (exfalso; apply NE; reflexivity).
    cbv zeta in *. rewrite SRC in *. specialize (GEN files (Some past)). destruct (run_from _ _ _ _ _ _) as [w0 [[]|e'|]]; apply GEN; cbn; try reflexivity; intros; congruence.
Qed.

(** Resuming: the same, whatever invocations came before (C62). *)
Theorem C63_resume_succeeds : forall src files b, project files -> nameable files -> ascending (map c_span (all_cands files)) ->
  (forall s t, b_result b s t <> XNone) ->
  forall g o sel k l rows, reachable yaml semver vcmp vshow pshow builtin_skill builtin_version hash16 default_toml src files b (k_db k) -> usual src files b g o sel k ->
  runs_tests o -> prepared g o sel k files -> nothing_deprecated o -> g_handler g = true -> g_sql g = all_ok -> k_db k = Some (Some rows) ->
  given o resume -> ~ given o reset -> ~ given o no_sqlite ->
  healthy hash16 src l files (allowing (g_oracle g)) ->
  exit g o sel k = 0%N \/ (exit g o sel k = 2%N /\ meets_denied o (a_trace (invoke g o sel k))).
Proof.
  intros src files b PR NA ASC J g o sel k l rows RD US RT P ND GH SQ DB RE NR NS HE.
  rewrite (prepared_runs g o sel k files RT P ND). destruct (main_run_from g o files k GH) as [_ M2].
  destruct (reachable_stands yaml semver vcmp vshow pshow builtin_skill builtin_version hash16 default_toml src files b PR NA _ RD rows DB) as [rs [HI FR]].
  assert (OD : open_db g o k = ([], Ok rs)).
  { unfold open_db. rewrite SQ, DB, (runs_no_dump o RT). unfold given in RE, NR. rewrite RE. destruct (op_reset o); [congruence|]. cbn.
    rewrite (rows_read hash16 src files b PR NA g o sel k rs rows US HI FR). reflexivity. }
  assert (NQ : op_no_sqlite o = false) by (unfold given in NS; destruct (op_no_sqlite o); congruence).
  destruct (M2 [] rs NQ OD eq_refl) as [ET [EX EE]]. cbv zeta in *. pose proof US as [SRC [_ [FO _]]]. rewrite SRC in *.
  destruct (run_from_allowing hash16 src (oracle_of g o) files src (Some rs)) as [E|E].
  - right. split; [exact (EE _ E)|]. rewrite ET. pose proof (run_from_fine hash16 src (oracle_of g o) files src (Some rs)) as F. cbv zeta in F.
    destruct F as [[_ [r' [e [pre [T [DE _]]]]]]|[F _]]; [|congruence]. apply den_iff in DE as [w [W D']]. exists e, w.
    split; [rewrite T; apply in_or_app; right; left; reflexivity|auto].
  - left. apply EX. rewrite E. change (allowing (oracle_of g o)) with (allowing (g_oracle g)).
    apply (C09_resume_ends_partial hash16 src files src b PR ASC J (allowing (g_oracle g)) rs l HI FO HE).
Qed.
End Progress.
Print Assumptions C63_succeeds.
Print Assumptions C63_denied_ends.
Print Assumptions C63_resume_succeeds.

(** The project of P_Run, whose dry runs fail, with and without [--deny dry-run-failed]. *)
Definition ex_deny (l : list warning) : options := Options [] None false l false false false false false false false false false false None None false false [] [].
Lemma ex_prepared x : prepared (ex_setting ex_files x) (ex_deny []) None ex_start ex_files /\ prepared (ex_setting ex_files x) (ex_deny [WDryRunFailed]) None ex_start ex_files.
Proof.
  assert (G : forall l, prepared (ex_setting ex_files x) (ex_deny l) None ex_start ex_files).
  { intros l. split; [apply accepted_iff; reflexivity|]. exists ex_root, toml_default, Rust, [], 2.
    split; [reflexivity|]. split; [reflexivity|]. split; [split; reflexivity|]. split; [vm_compute; reflexivity|]. split; [reflexivity|]. split; [constructor|reflexivity]. }
  split; apply G.
Qed.
Definition ex_o_dry : oracle := ex_oracle ex_b_dry (fun _ => false) (fun _ => None).
Example C63_nonvacuous :
  let g := ex_setting ex_files ex_o in let d := ex_setting ex_files ex_o_dry in
  runs_tests (ex_deny [WDryRunFailed]) /\ prepared g (ex_deny []) None ex_start ex_files /\ nothing_deprecated (ex_deny []) /\ project ex_files /\
  g_handler g = true /\ database_ready g (ex_deny []) ex_start /\ healthy ex_hash (k_src ex_start) (fun _ => LRust) ex_files (allowing (g_oracle g)) /\
  exit_code (ex_invoke g (ex_deny []) ex_start) = 0%N /\
  exit_code (ex_invoke d (ex_deny []) ex_start) = 0%N /\ 
  outcomes (final ex_start (ex_invoke d (ex_deny []) ex_start)) = [s2t "skipped"; s2t "skipped"] /\
  exit_code (ex_invoke d (ex_deny [WDryRunFailed]) ex_start) = 2%N /\
  exit_code (ex_invoke d (ex_deny [WAll]) ex_start) = 2%N /\
  exit_code (ex_invoke d (ex_deny [WFilesChanged]) ex_start) = 0%N /\
  (exists before, a_trace (ex_invoke d (ex_deny [WDryRunFailed]) ex_start) = [] ++ EWarn DryRunFailed :: before).
Proof.
  cbv zeta. split; [unfold runs_tests, only_looks, about_skill, given; cbn; repeat split; intuition congruence|].
  split; [apply ex_prepared|]. split; [discriminate|]. split; [exact ex_project|]. split; [reflexivity|].
  split; [right; split; [reflexivity|]; left; split; [reflexivity|]; unfold given; cbn; intuition discriminate|].
  split; [exact (ex_healthy_gen ex_files (or_introl eq_refl))|].
  do 6 (split; [vm_compute; reflexivity|]).
  eexists. vm_compute. reflexivity.
Qed.
