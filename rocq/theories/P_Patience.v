(** C86: a longer time limit changes nothing but removals that timed out. *)
From Verif Require Import Base M_Text M_Rewriter M_Span S_Span M_Instr M_Run S_Run L_Run L_RunFinal L_Resume L_History L_Console P_Run
  M_Output M_Sqlite P_Sqlite M_Options P_Options M_Config M_Main P_Main P_EndToEnd P_Look P_Progress
  M_Exec S_Exec L_Exec P_Exec P_Part S_Patience.
From Verif Require M_Skill P_Skill.
From Coq Require Import List Lia.
Local Open Scope list_scope.

(** ** One execution *)
Lemma in_time opt opt' o : more_time opt opt' -> ends_within o (timeout opt) = true -> ends_within o (timeout opt') = true.
Proof.
  intros M H. unfold ends_within in *. destruct (timeout opt') as [d'|] eqn:T'; [|reflexivity].
  assert (A : allowed opt' d').
  { unfold timeout in T'. destruct opt' as [s|]; [|injection T' as <-; left; split; reflexivity].
    destruct (N.eqb_spec s 0); [discriminate|]. injection T' as <-. right. exists s. auto. }
  destruct (M d' A) as (d & [[-> ->]|(s & -> & NZ & ->)] & L).
  - cbn in H. destruct (os_life o); [|discriminate]. apply N.leb_le in H. apply N.leb_le. lia.
  - unfold timeout in H. destruct (N.eqb_spec s 0); [contradiction|]. unfold nanos in H. destruct (os_life o); [|discriminate]. apply N.leb_le in H. apply N.leb_le. lia.
Qed.

(** An execution that does not time out goes with any longer limit as it goes with this one: the same limits, the same events, the same
    result. *)
Theorem C86_execution : forall opt opt' post o l l' events x, more_time opt opt' ->
  perform_exec opt post o l = Some (l', events, Ok x) -> x <> XTimedOut ->
  perform_exec opt' post o l = Some (l', events, Ok x).
Proof.
  intros opt opt' post o l l' events x M E NT.
  assert (NO : ~ outlives o opt) by (apply C14_classification in E; tauto).
  revert E. unfold perform_exec. destruct (os_nproc o); [|discriminate].
  destruct (set_soft_rlimit (fst _) _ _ _) as [[prev l1]| |]; try discriminate.
  destruct (negb (os_start o)); [discriminate|].
  destruct (ends_within o (timeout opt)) eqn:W.
  - rewrite (in_time opt opt' o M W).
    assert (K : match timeout opt', os_life o with None, None => true | _, _ => false end = match timeout opt, os_life o with None, None => true | _, _ => false end).
    { destruct (os_life o) eqn:OL; [destruct (timeout opt), (timeout opt'); reflexivity|]. pose proof (in_time opt opt' o M W) as W'. unfold ends_within in W, W'. rewrite OL in W, W'.
      destruct (timeout opt), (timeout opt'); try discriminate; reflexivity. }
    rewrite K. auto.
  - exfalso. clear -W NO. unfold ends_within in W. destruct (timeout opt) as [d|] eqn:T; [|discriminate]. apply NO. exists d. split.
    + unfold timeout in T. destruct opt as [s|]; [|injection T as <-; left; split; reflexivity].
      destruct (N.eqb_spec s 0); [discriminate|]. injection T as <-. right. exists s. auto.
    + intros life E. rewrite E in W. apply N.leb_gt. exact W.
Qed.
Print Assumptions C86_execution.

(** ** Candidates *)
Lemma result_stays opt opt' a b b' : more_time opt opt' -> seen_with opt a b -> seen_with opt' a b' -> same_builds b b' ->
  forall s t, b_builds b s t = true -> b_result b s t <> XTimedOut -> b_result b' s t = b_result b s t.
Proof.
  intros M S1 S2 [_ SB] s t B NT. destruct (S1 s t B) as (l1 & l1' & e1 & E1). destruct (S2 s t) as (l2 & l2' & e2 & E2); [rewrite SB; exact B|].
  pose proof (C14_classification _ _ _ _ _ _ _ E1) as C1.
  assert (NO : ~ outlives (n_system a s t) opt) by tauto.
  assert (NO' : ~ outlives (n_system a s t) opt').
  { intros (d' & A & L). destruct (M d' A) as (d & A' & LE). apply NO. exists d. split; [exact A'|]. intros life OL. specialize (L life OL). lia. }
  pose proof (C14_classification _ _ _ _ _ _ _ E2) as C2.
  destruct (b_result b s t), (b_result b' s t); try reflexivity; exfalso; intuition congruence.
Qed.

Lemma verdict_tests_stays b b' s : (forall t, b_builds b' s t = b_builds b s t) ->
  (forall t, b_builds b s t = true -> b_result b s t <> XTimedOut -> b_result b' s t = b_result b s t) ->
  forall ts, verdict_tests b s ts <> Some TimedOut -> verdict_tests b' s ts = verdict_tests b s ts.
Proof.
  intros SB SR. induction ts as [|t ts IH]; [reflexivity|]. cbn [verdict_tests]. intros H. rewrite SB. destruct (b_builds b s t) eqn:B; [|reflexivity].
  specialize (SR t B). destruct (b_result b s t); try (rewrite SR by discriminate); auto; try reflexivity. destruct H. reflexivity.
Qed.

(** The outcome that the tests of a candidate give it is the same, unless it was "timed-out". *)
Theorem C86_outcome : forall opt opt' a b b', more_time opt opt' -> seen_with opt a b -> seen_with opt' a b' -> same_builds b b' ->
  forall c, verdict b c <> Some TimedOut -> verdict b' c = verdict b c.
Proof.
  intros opt opt' a b b' M S1 S2 SB c H. unfold verdict in *. destruct SB as [SD SB]. rewrite SD. destruct (b_dry b _); [|reflexivity].
  apply verdict_tests_stays; [intros t; apply SB| |exact H]. intros t. apply (result_stays opt opt' a b b' M S1 S2 (conj SD SB)).
Qed.
Print Assumptions C86_outcome.

(** ** Runs *)
Lemma is_row_unique contents b c r r' : is_row contents b c r -> is_row contents b c r' -> r = r'.
Proof. intros (A1 & A2 & A3) (B1 & B2 & B3). destruct r, r'. cbn in *. congruence. Qed.
Lemma row_stays contents b b' : (forall c, verdict b c <> Some TimedOut -> verdict b' c = verdict b c) ->
  forall c r, is_row contents b c r -> rm_outcome r <> TimedOut -> is_row contents b' c r.
Proof. intros H c r (A1 & A2 & A3) N. split; [exact A1|]. split; [exact A2|]. rewrite H; congruence. Qed.
Lemma text_stays contents b b' c r r' : is_row contents b c r -> is_row contents b' c r' -> rm_span r = rm_span r' /\ rm_text r = rm_text r'.
Proof. intros (A1 & A2 & A3) (B1 & B2 & B3). split; congruence. Qed.

(** What two runs report or record: of the same candidate, the same text, and, unless the first run found "timed-out", the same outcome.
    Both may be runs on any database, and broken off at any point. *)
Theorem C86_row : forall opt opt' a b b', more_time opt opt' -> seen_with opt a b -> seen_with opt' a b' -> same_builds b b' ->
  forall hash16 contents files o o' fs fs' db db' r r', project files -> follows b o -> follows b' o' ->
  let tr := w_trace (fst (run_from hash16 contents o files fs db)) in
  let tr' := w_trace (fst (run_from hash16 contents o' files fs' db')) in
  In (EConsole r) tr \/ In (EInsert r) tr -> In (EConsole r') tr' \/ In (EInsert r') tr' -> rm_span r' = rm_span r ->
  rm_text r' = rm_text r /\ (rm_outcome r <> TimedOut -> r' = r).
Proof.
  intros opt opt' a b b' M S1 S2 SB h ct files o o' fs fs' db db' r r' P F F' tr tr' H H' E.
  destruct (reported_justified h ct o files fs db (proj1 P) r H) as (c & Hc & R).
  destruct (reported_justified h ct o' files fs' db' (proj1 P) r' H') as (c' & Hc' & R').
  assert (c' = c). { eapply (NoDup_map_inv_eq c_span); [apply P|exact Hc'|exact Hc|]. destruct R as [R _], R' as [R' _]. congruence. }
  subst c'. apply (row_verdict h ct files fs b P o db c r F Hc) in R. apply (row_verdict h ct files fs' b' P o' db' c r' F' Hc) in R'.
  split; [symmetry; apply (text_stays ct b b' c r r' R R')|]. intros N. apply (is_row_unique ct b' c); [exact R'|].
  apply (row_stays ct b b' (C86_outcome opt opt' a b b' M S1 S2 SB) c r R N).
Qed.
Print Assumptions C86_row.

Lemma fresh_rows hash16 contents files b o fs : project files -> follows b o ->
  snd (run_from hash16 contents o files fs (Some [])) = Ok tt ->
  exists rows, w_db (fst (run_from hash16 contents o files fs (Some []))) = Some rows /\ NoDup (map rm_span rows) /\
    (forall r, In r rows <-> exists c, In c (all_cands files) /\ is_row contents b c r) /\
    consoles (w_trace (fst (run_from hash16 contents o files fs (Some [])))) = filter judged rows.
Proof.
  intros P F OK. destruct (rows_spec hash16 contents o files fs (Some []) (proj1 P) (proj1 (proj2 P)) eq_refl) as (rows & D & ND & R1 & R2 & R3).
  exists rows. split; [exact D|]. split; [exact ND|].
  assert (R4 : forall r, In r rows -> exists c, In c (all_cands files) /\ is_row contents b c r).
  { intros r I. destruct (R1 r I) as (c & Hc & R). exists c. split; [exact Hc|]. eapply row_verdict; eassumption. }
  split.
  - intros r. split; [apply R4|]. intros (c & Hc & R). destruct (R3 OK c Hc) as (x & X1 & X2).
    { intros U. apply (unjudged_verdict hash16 contents files fs b P o (Some []) c F Hc) in U. destruct R as (_ & _ & R). congruence. }
    destruct (R4 x X1) as (c' & Hc' & R').
    assert (c' = c). { eapply (NoDup_map_inv_eq c_span); [apply P|exact Hc'|exact Hc|]. destruct R' as [R' _]. congruence. }
    subst c'. rewrite (is_row_unique contents b c r x R R'). exact X1.
  - pose proof (reported_is_recorded hash16 contents o files fs []) as C. cbv zeta in C. rewrite C.
    pose proof (db_after hash16 contents o files fs [] (proj1 P)) as DA. rewrite D in DA. injection DA as ->. reflexivity.
Qed.

(** Two complete runs from an empty database: the rows that the second stores are those of the first, but for removals that timed out in
    the first; and likewise what they report.  In each, no candidate has two rows. *)
Theorem C86_run : forall opt opt' a b b', more_time opt opt' -> seen_with opt a b -> seen_with opt' a b' -> same_builds b b' ->
  forall hash16 contents files o o' fs fs', project files -> follows b o -> follows b' o' ->
  let first := run_from hash16 contents o files fs (Some []) in
  let second := run_from hash16 contents o' files fs' (Some []) in
  snd first = Ok tt -> snd second = Ok tt ->
  exists rs rs', w_db (fst first) = Some rs /\ w_db (fst second) = Some rs' /\ NoDup (map rm_span rs) /\ NoDup (map rm_span rs') /\
    same_but_time_outs rs rs' /\ same_but_time_outs (consoles (w_trace (fst first))) (consoles (w_trace (fst second))).
Proof.
  intros opt opt' a b b' M S1 S2 SB h ct files o o' fs fs' P F F' first second OK OK'.
  pose proof (C86_outcome opt opt' a b b' M S1 S2 SB) as CO.
  destruct (fresh_rows h ct files b o fs P F OK) as (rs & D & ND & R & K). destruct (fresh_rows h ct files b' o' fs' P F' OK') as (rs' & D' & ND' & R' & K').
  exists rs, rs'. split; [exact D|]. split; [exact D'|]. split; [exact ND|]. split; [exact ND'|].
  assert (G1 : forall r, In r rs -> rm_outcome r <> TimedOut -> In r rs').
  { intros r I N. apply R'. apply R in I as (c & Hc & X). exists c. split; [exact Hc|]. apply (row_stays ct b b' CO c r X N). }
  assert (G2 : forall r', In r' rs' -> In r' rs \/ exists r, In r rs /\ rm_outcome r = TimedOut /\ rm_span r = rm_span r' /\ rm_text r = rm_text r').
  { intros r' I. apply R' in I as (c & Hc & X). destruct (verdict b c) as [v|] eqn:VB.
    - destruct v.
      1,2,3,5: left; apply R; exists c; split; [exact Hc|]; destruct X as (X1 & X2 & X3); split; [exact X1|split; [exact X2|]]; rewrite (CO c) in X3 by congruence; exact X3.
      right. destruct X as (X1 & X2 & X3). exists (Removal (c_span c) (rm_text r') TimedOut). cbn. split; [|auto].
      apply R. exists c. split; [exact Hc|]. split; [reflexivity|]. split; [exact X2|exact VB].
    - exfalso. destruct X as (X1 & X2 & X3). rewrite (CO c) in X3; congruence. }
  split; [split; [exact G1|exact G2]|]. unfold first, second. rewrite K, K'. split.
  - intros r I N. apply filter_In in I as [I J]. apply filter_In. split; [exact (G1 r I N)|exact J].
  - intros r' I. apply filter_In in I as [I J]. destruct (G2 r' I) as [H|(r & H1 & H2 & H3)].
    + left. apply filter_In. split; assumption.
    + right. exists r. split; [apply filter_In; split; [exact H1|unfold judged; rewrite H2; reflexivity]|]. split; assumption.
Qed.
Print Assumptions C86_run.

(** When statements and method calls are not interleaved and every test says how it ended, the rows correspond one to one, in their order. *)
Theorem C86_in_order : forall opt opt' a b b', more_time opt opt' -> seen_with opt a b -> seen_with opt' a b' -> same_builds b b' ->
  forall hash16 contents files o o' fs, project files -> ascending (map c_span (all_cands files)) ->
  (forall s t, b_result b s t <> XNone) -> (forall s t, b_result b' s t <> XNone) -> follows b o -> follows b' o' ->
  let first := run_from hash16 contents o files fs (Some []) in
  let second := run_from hash16 contents o' files fs (Some []) in
  snd first = Ok tt -> snd second = Ok tt ->
  exists rs rs', w_db (fst first) = Some rs /\ w_db (fst second) = Some rs' /\
    Forall2 (fun r r' => rm_span r = rm_span r' /\ rm_text r = rm_text r' /\ (rm_outcome r <> TimedOut -> r' = r)) rs rs'.
Proof.
  intros opt opt' a b b' M S1 S2 SB h ct files o o' fs P A J J' F F' first second OK OK'.
  pose proof (C86_outcome opt opt' a b b' M S1 S2 SB) as CO.
  destruct (resume_equals h ct files fs b P A J o [] (h_new h ct files fs b) F) as (_ & _ & _ & _ & K).
  destruct (resume_equals h ct files fs b' P A J' o' [] (h_new h ct files fs b') F') as (_ & _ & _ & _ & K').
  destruct (K OK) as (rs & D & R). destruct (K' OK') as (rs' & D' & R'). exists rs, rs'. split; [exact D|]. split; [exact D'|].
  clear -R R' CO. revert rs' R'. induction R as [|c r cs rs H R IH]; intros rs' R'; inversion R' as [|c' r' cs' rs'' H' R'' E1 E2]; subst; constructor; [|apply IH; assumption].
  destruct (text_stays ct b b' c r r' H H') as [T1 T2]. split; [exact T1|]. split; [exact T2|]. intros N. apply (is_row_unique ct b' c); [exact H'|].
  apply (row_stays ct b b' CO c r H N).
Qed.
Print Assumptions C86_in_order.

(** Resuming with a longer limit: rows stored with the shorter one stay, "timed-out" ones too, and are not tested again; each row that is not
    "timed-out" is what the longer limit gives. *)
Theorem C86_resumed : forall opt opt' a b b', more_time opt opt' -> seen_with opt a b -> seen_with opt' a b' -> same_builds b b' ->
  forall hash16 contents files o' fs rows, project files -> ascending (map c_span (all_cands files)) ->
  history hash16 contents files fs b rows -> follows b' o' ->
  let resumed := run_from hash16 contents o' files fs (Some rows) in
  (exists more, w_db (fst resumed) = Some (rows ++ more)) /\
  (forall s t, In (s, t) (runs (w_trace (fst resumed))) -> ~ In s (map rm_span rows)) /\
  (forall all r, w_db (fst resumed) = Some all -> In r all -> rm_outcome r <> TimedOut ->
     exists c, In c (all_cands files) /\ is_row contents b' c r).
Proof.
  intros opt opt' a b b' M S1 S2 SB h ct files o' fs rows P A H F resumed.
  pose proof (C86_outcome opt opt' a b b' M S1 S2 SB) as CO.
  pose proof (db_after h ct o' files fs rows (proj1 P)) as D. split; [eexists; exact D|].
  pose proof (hist_nodup h ct files fs b P A rows H) as ND.
  destruct (resumed_sorted h ct o' files fs rows (proj1 P) (nodup_c files P) (wf_all files P) (hist_wf h ct files fs b P rows H) A ND)
    as (_ & _ & T & _).
  split; [intros s t Hst; destruct (T s t Hst) as (c & _ & <- & X); exact X|].
  intros all r E I N. unfold resumed in E. rewrite D in E. injection E as <-. apply in_app_or in I as [I|I].
  - destruct (hist_rows h ct files fs b P rows H r I) as (c & Hc & R). exists c. split; [exact Hc|]. apply (row_stays ct b b' CO c r R N).
  - apply (insert_is_row h ct files fs b' P o' rows r F I).
Qed.
Print Assumptions C86_resumed.

(** ** Invocations *)
Section Main.
Context {V : Type} (yaml : text -> option M_Skill.header) (semver : text -> option V) (vcmp : V -> V -> comparison)
        (vshow : V -> text) (pshow : path -> text) (builtin_skill : text) (builtin_version : V).
Context (hash16 : text -> text) (default_toml : text).
Notation invoke := (necessist yaml semver vcmp vshow pshow builtin_skill builtin_version hash16 default_toml).
Notation exit g o sel k := (exit_code (invoke g o sel k)).

(** The same surroundings, but for what happens during the run. *)
Definition with_runs (g : setting) (x : oracle) : setting :=
  Setting (g_env g) (g_home g) (g_sys g) (g_skill_path g) (g_root g) (g_lock g) (g_config_stat g) (g_config_read g) (g_config_write g) (g_toml g)
    (g_exists g) (g_construct g) (g_canon g) (g_parse g) (g_sql g) (g_file_exists g) (g_handler g) x (g_url g).

Lemma same_prepared g x o o' sel k files : same_but_timeout o o' -> prepared g o sel k files -> prepared (with_runs g x) o' sel k files.
Proof.
  intros SB (AC & r & c & f & ps & n & H). unfold same_but_timeout in SB. remember (op_timeout o') as t eqn:X. clear X.
  split; [subst o'; apply accepted_iff; apply accepted_iff in AC; exact AC|]. exists r, c, f, ps, n. subst o'. exact H.
Qed.

(** Two complete invocations that differ in the time limit and, because of it, in how tests end: the rows in the database, and the removals
    reported, are the same, but for removals that timed out. *)
Theorem C86_invocation : forall g x o o' sel k files a b b', runs_tests o -> ~ given o no_sqlite -> same_but_timeout o o' -> afresh o k ->
  prepared g o sel k files -> project files ->
  more_time (op_timeout o) (op_timeout o') -> seen_with (op_timeout o) a b -> seen_with (op_timeout o') a b' -> same_builds b b' ->
  follows b (g_oracle g) -> follows b' x ->
  exit g o sel k = 0%N -> exit (with_runs g x) o' sel k = 0%N ->
  exists rs rs', k_db (final k (invoke g o sel k)) = Some (Some (map (to_row g) rs)) /\
    k_db (final k (invoke (with_runs g x) o' sel k)) = Some (Some (map (to_row g) rs')) /\
    NoDup (map rm_span rs) /\ NoDup (map rm_span rs') /\ same_but_time_outs rs rs' /\
    same_but_time_outs (consoles (a_trace (invoke g o sel k))) (consoles (a_trace (invoke (with_runs g x) o' sel k))).
Proof.
  intros g x o o' sel k files a b b' RT NQ SB AF P PR MT S1 S2 SM F F' EX EX'.
  assert (NS : op_no_sqlite o = false) by (destruct (op_no_sqlite o) eqn:Q; [destruct NQ; exact Q|reflexivity]).
  assert (DP : nothing_deprecated o).
  { unfold nothing_deprecated. intros NL D. revert EX. destruct P as (AC & r & c & f & ps & n & R & L & _). unfold necessist. apply accepted_iff in AC. rewrite AC.
    destruct (op_check_skill o) eqn:CS; [destruct RT as [_ [N _]]; destruct N; left; unfold given; cbn; congruence|]. destruct (op_find_skill o) eqn:FS; [destruct RT as [_ [N _]]; destruct N; right; exact FS|].
    rewrite R, L. cbn [negb]. apply denied_iff in D. change (M_Main.denied o WOptionDeprecated) with (denied o WOptionDeprecated) in D. rewrite NL, D. discriminate. }
  pose proof (same_prepared g x o o' sel k files SB P) as P'.
  unfold same_but_timeout in SB. remember (op_timeout o') as t eqn:Et. clear Et.
  assert (RT' : runs_tests o') by (rewrite SB; exact RT). assert (DP' : nothing_deprecated o') by (rewrite SB; exact DP).
  pose proof (prepared_runs yaml semver vcmp vshow pshow builtin_skill builtin_version hash16 default_toml g o sel k files RT P DP) as I1.
  pose proof (prepared_runs yaml semver vcmp vshow pshow builtin_skill builtin_version hash16 default_toml (with_runs g x) o' sel k files RT' P' DP') as I2.
  rewrite I1 in *. rewrite I2 in *. clear I1 I2.
  pose proof (runs_no_dump o RT) as DU. pose proof (runs_no_dump o' RT') as DU'.
  assert (NS' : op_no_sqlite o' = false) by (rewrite SB; exact NS).
  revert EX EX'. unfold main_run. cbn [g_handler with_runs]. destruct (g_handler g); cbn [negb]; [|discriminate]. rewrite NS, NS'.
  destruct (open_db g o k) as [states [past|e|]] eqn:OD; [|discriminate|discriminate]. intros EX.
  destruct (open_db (with_runs g x) o' k) as [states' [past'|e|]] eqn:OD'; [|discriminate|discriminate]. intros EX'.
  assert (FR : op_reset o = true \/ k_db k = None) by (destruct AF as [H|[H|H]]; [contradiction|left; exact H|right; exact H]).
  assert (FR' : op_reset o' = true \/ k_db k = None) by (rewrite SB; exact FR).
  destruct (opened_afresh g o k states past DU FR OD) as (-> & KS & KD). destruct (opened_afresh (with_runs g x) o' k states' past' DU' FR' OD') as (-> & KS' & KD').
  rewrite KS, KD, KS', KD' in *.
  destruct (C86_run (op_timeout o) t a b b' MT S1 S2 SM hash16 (k_src k) files (oracle_of g o) (oracle_of (with_runs g x) o') (k_src k) (k_src k) PR F F') as (rs & rs' & D & D' & ND & ND' & R1 & R2).
  { destruct (run_from hash16 (k_src k) (oracle_of g o) files (k_src k) (Some [])) as [w r]. destruct r as [[]| |]; [reflexivity|discriminate|discriminate]. }
  { destruct (run_from hash16 (k_src k) (oracle_of (with_runs g x) o') files (k_src k) (Some [])) as [w r]. destruct r as [[]| |]; [reflexivity|discriminate|discriminate]. }
  exists rs, rs'.
  destruct (run_from hash16 (k_src k) (oracle_of g o) files (k_src k) (Some [])) as [w r].
  destruct (run_from hash16 (k_src k) (oracle_of (with_runs g x) o') files (k_src k) (Some [])) as [w' r'].
  cbn [fst snd] in D, D', R2. rewrite D, D'. unfold final. cbn [a_states a_trace fst length skipn]. rewrite !last_last. cbn.
  repeat (split; [first [reflexivity|assumption]|]). exact R2.
Qed.
End Main.
Print Assumptions C86_invocation.

(** ** An example: with a limit of one second, a test that takes two seconds and then fails makes a removal "timed-out"; with three, "failed". *)
Definition slow (s : span) (t : text) : bool := andb (Nat.eqb (column (sp_start s)) 0) (text_eqb t (s2t "T2")).
Definition p_nature : nature :=
  Nature (fun s t => if slow s t then ex_os (Some (2 * 1000000000)%N) (Exited 1) else ex_os (Some 5%N) (Exited 0)) (fun _ _ => None).
Definition p_short : behaviour := Behaviour (fun _ => true) (fun _ _ => true) (fun s t => if slow s t then XTimedOut else XPassed).
Definition p_oracle (b : behaviour) : oracle := ex_oracle b (fun _ => false) (fun _ => None).
Definition p_options (t : N) : options := Options [] None false [] false false false false false false false false false false None (Some t) false false [] [].

Example C86_nonvacuous :
  let g := ex_setting ex_files_m (p_oracle p_short) in
  runs_tests (p_options 1) /\ ~ given (p_options 1) no_sqlite /\ same_but_timeout (p_options 1) (p_options 3) /\ afresh (p_options 1) ex_start /\
  prepared g (p_options 1) None ex_start ex_files_m /\ project ex_files_m /\ more_time (Some 1%N) (Some 3%N) /\
  seen_with (Some 1%N) p_nature p_short /\ seen_with (Some 3%N) p_nature ex_b /\ same_builds p_short ex_b /\
  follows p_short (g_oracle g) /\ follows ex_b (p_oracle ex_b) /\
  exit_code (ex_invoke g (p_options 1) ex_start) = 0%N /\ exit_code (ex_invoke (with_runs g (p_oracle ex_b)) (p_options 3) ex_start) = 0%N /\
  map rm_outcome (consoles (a_trace (ex_invoke g (p_options 1) ex_start))) = [TimedOut; Passed; Passed] /\
  map rm_outcome (consoles (a_trace (ex_invoke (with_runs g (p_oracle ex_b)) (p_options 3) ex_start))) = [Failed; Passed; Passed].
Proof.
  cbv zeta. split; [unfold runs_tests, only_looks, about_skill, given; cbn; repeat split; intuition congruence|]. split; [unfold given; cbn; congruence|]. split; [reflexivity|]. split; [right; right; reflexivity|].
  split; [split; [apply accepted_iff; vm_compute; reflexivity|exists ex_root, toml_default, Rust, [], 2; repeat split; auto; constructor]|].
  split; [exact ex_project_m|].
  split; [intros d' [[H _]|(s & H & _ & ->)]; [discriminate|injection H as <-; exists (1 * 1000000000)%N; split; [right; exists 1%N; repeat split; congruence|vm_compute; congruence]]|].
  split; [intros s t _; exists (Limits 10 5000); cbn [p_nature n_system n_check p_short b_result]; destruct (slow s t); do 2 eexists; vm_compute; reflexivity|].
  split; [intros s t _; exists (Limits 10 5000); cbn [p_nature n_system n_check ex_b b_result]; fold (slow s t); destruct (slow s t); do 2 eexists; vm_compute; reflexivity|].
  split; [split; reflexivity|]. split; [repeat split|]. split; [repeat split|].
  repeat split; vm_compute; reflexivity.
Qed.
