(** Property theorems C06-C13 (the run loop). *)
From Verif Require Import Base M_Text S_Text L_Text M_Rewriter M_Span S_Span L_Span M_Instr S_Instr L_Instr M_Run S_Run L_Run L_RunFinal L_Resume L_History L_Total L_Unique.
Local Open Scope string_scope.
Local Open Scope list_scope.

(** ** A small project, used to show that hypotheses can be met *)
Definition ex_path : path := [s2t "t.rs"].
Definition ex_text : text := s2t "x.a();b();".
Definition ex_s1 : span := Span ex_path (LC 1 0) (LC 1 6).
Definition ex_s2 : span := Span ex_path (LC 1 6) (LC 1 10).
Definition ex_m1 : span := Span ex_path (LC 1 1) (LC 1 5).
Definition ex_tests : list text := [s2t "T1"; s2t "T2"].
(** Two statements; then also the method call [.a()] inside the first of them. *)
Definition ex_files : list (path * span_test_maps) :=
  [(ex_path, STM [(ex_s1, ex_tests); (ex_s2, ex_tests)] [])].
Definition ex_files_m : list (path * span_test_maps) :=
  [(ex_path, STM [(ex_s1, ex_tests); (ex_s2, ex_tests)] [(ex_m1, ex_tests)])].
Definition ex_disk : path -> text := fun _ => ex_text.
Definition ex_hash : text -> text := fun t => t.

Definition ex_oracle (b : behaviour) (ctrlc : trace -> bool) (write : trace -> option text) : oracle :=
  Oracle (fun _ p => if b_dry b p then Ok tt else Err tt) ctrlc (fun _ => false) (fun _ _ => true)
    (fun _ _ _ => Ok None) (fun s => Ok (guard_text LRust (span_id ex_hash s))) (fun tr _ => write tr)
    (fun _ _ => Ok tt) (fun _ t s => Ok (if b_builds b s t then Some tt else None))
    (fun _ t s => Ok (b_result b s t)) (fun _ => true).

(** T2 fails without the first statement; everything else passes. *)
Definition ex_b : behaviour := Behaviour (fun _ => true) (fun _ _ => true)
  (fun s t => if andb (Nat.eqb (column (sp_start s)) 0) (text_eqb t (s2t "T2")) then XFailed else XPassed).
Definition ex_o : oracle := ex_oracle ex_b (fun _ => false) (fun _ => None).
(** The signal comes while the second statement is tested. *)
Definition ex_o_ctrlc : oracle := ex_oracle ex_b (fun tr => Nat.leb 3 (length (runs tr))) (fun _ => None).
(** Writing the instrumented file fails, leaving junk. *)
Definition ex_o_write : oracle := ex_oracle ex_b (fun _ => false) (fun _ => Some (s2t "junk")).

Definition changes (tr : trace) : list mismatch :=
  flat_map (fun e => match e with EWarnChanged m => [m] | _ => [] end) (rev tr).
Definition ex_run o files db := run_from ex_hash ex_disk o files ex_disk db.

Lemma ex_paths_ok : paths_ok ex_files.
Proof.
  intros p m c [E|[]] Hc. injection E as <- <-. cbn in Hc. destruct Hc as [<-|[<-|[]]]; reflexivity.
Qed.
Lemma ex_paths_ok_m : paths_ok ex_files_m.
Proof.
  intros p m c [E|[]] Hc. injection E as <- <-. cbn in Hc. destruct Hc as [<-|[<-|[<-|[]]]]; reflexivity.
Qed.
Lemma ex_wf_path : wf_path ex_path.
Proof. split; [discriminate|]. constructor; [|constructor]. split; [discriminate|]. split; [discriminate|]. cbn. intuition discriminate. Qed.
Lemma ex_project : project ex_files.
Proof.
  split; [exact ex_paths_ok|]. split.
  - split; [repeat constructor; cbn; intuition discriminate|].
    intros c [<-|[<-|[]]]; repeat constructor; cbn; intuition discriminate.
  - intros c [<-|[<-|[]]]; (split; [exact ex_wf_path|discriminate]).
Qed.
Lemma ex_project_m : project ex_files_m.
Proof.
  split; [exact ex_paths_ok_m|]. split.
  - split; [repeat constructor; cbn; intuition discriminate|].
    intros c [<-|[<-|[<-|[]]]]; repeat constructor; cbn; intuition discriminate.
  - intros c [<-|[<-|[<-|[]]]]; (split; [exact ex_wf_path|discriminate]).
Qed.
Lemma ex_layout : layout ex_text [ex_s1; ex_s2].
Proof.
  split; [|split].
  - intros s [<-|[<-|[]]].
    + exists [], (s2t "x.a();"), (s2t "b();"). split; [repeat split|discriminate].
    + exists (s2t "x.a();"), (s2t "b();"), []. split; [repeat split|discriminate].
  - intros l1 a l2 b l3 E. destruct l1 as [|x1 [|x2 l1]]; cbn in E.
    + injection E as <- E. destruct l2 as [|y l2]; cbn in E; [injection E as <- <-; right; cbn; lia|]. destruct l2; discriminate.
    + injection E as _ _ E. destruct l2; discriminate.
    + destruct l1; discriminate.
  - intros l1 a l2 b l3 E. destruct l1 as [|x1 [|x2 l1]]; cbn in E.
    + injection E as <- E. destruct l2 as [|y l2]; cbn in E; [injection E as <- <-; left; left; reflexivity|]. destruct l2; discriminate.
    + injection E as _ _ E. destruct l2; discriminate.
    + destruct l1; discriminate.
Qed.
Lemma ex_follows ctrlc write : follows ex_b (ex_oracle ex_b ctrlc write).
Proof. repeat split. Qed.
Lemma ex_scalars : scalars ex_text.
Proof. repeat constructor. Qed.
Lemma ex_healthy_gen files : (files = ex_files \/ files = ex_files_m) -> healthy ex_hash ex_disk (fun _ => LRust) files ex_o.
Proof.
  intros HF.
  assert (ST : forall p m, In (p, m) files -> map fst (stm_statement m) = [ex_s1; ex_s2]).
  { intros p m Hm. destruct HF as [-> | ->]; destruct Hm as [E|[]]; injection E as <- <-; reflexivity. }
  constructor; try (intros; cbn; try discriminate; auto; fail).
  - intros tr p n. exists None. split; [reflexivity|]. intros; exact I.
  - intros tr t s. eexists. reflexivity.
  - intros tr t s. eexists. reflexivity.
  - intros p m Hm. exact ex_scalars.
  - intros p m Hm. rewrite (ST p m Hm). exact ex_layout.
  - intros c Hc. assert (K : c_span c = ex_s1 \/ c_span c = ex_s2 \/ c_span c = ex_m1).
    { destruct HF as [-> | ->]; cbn in Hc; intuition (subst; cbn; auto). }
    destruct K as [-> | [-> | ->]].
    + exists [], (s2t "x.a();"), (s2t "b();"). repeat split.
    + exists (s2t "x.a();"), (s2t "b();"), []. repeat split.
    + exists (s2t "x"), (s2t ".a()"), (s2t ";b();"). repeat split.
Qed.

(** ** C06 *)
(** Whatever the outside world does and however the run ends, every file holds what it held. *)
Theorem C06_files_restored : forall hash16 contents o files fs db, paths_ok files ->
  forall p, w_fs (fst (run_from hash16 contents o files fs db)) p = fs p.
Proof. exact files_restored. Qed.
Print Assumptions C06_files_restored.

Example C06_nonvacuous :
  snd (ex_run ex_o ex_files_m (Some [])) = Ok tt /\
  length (runs (w_trace (fst (ex_run ex_o ex_files_m (Some []))))) = 6 /\
  snd (ex_run ex_o_write ex_files_m (Some [])) = Err WriteFailed /\
  snd (ex_run ex_o_ctrlc ex_files_m (Some [])) = Err CtrlC.
Proof. repeat split; vm_compute; reflexivity. Qed.

(** ** C07 *)
(** [l p] is the language of file [p]; the hypotheses are those of C05 for each file. *)
Theorem C07_own_removal_only : forall hash16 contents o files fs db, paths_ok files -> forall l : path -> lang,
  (forall s, o_guard o s = Ok (guard_text (l (sp_path s)) (span_id hash16 s))) ->
  (forall p m, In (p, m) files -> layout (contents p) (map fst (stm_statement m)) /\
     (forall s s', In s (map fst (stm_statement m)) -> In s' (map fst (stm_statement m)) ->
        span_id hash16 s = span_id hash16 s' -> s = s')) ->
  (forall p m tr n ex, In (p, m) files -> o_extra o tr p n = Ok ex ->
     extra_before (contents p) ex (map fst (stm_statement m))) ->
  forall s t env disk, In (ERun s t env disk) (w_trace (fst (run_from hash16 contents o files fs db))) ->
  (exists c, In c (all_cands files) /\ c_span c = s /\ In t (c_tests c)) /\
  env = span_id hash16 s /\
  (forall q, q <> sp_path s -> disk q = fs q) /\
  ((exists removed, remove_text (contents (sp_path s)) s = Some (removed, disk (sp_path s))) \/
   (exists xs, disk (sp_path s) = render (l (sp_path s)) xs /\ chars_of xs = contents (sp_path s) /\
      forall before mid after, between (contents (sp_path s)) (sp_start s) (sp_end s) before mid after ->
        eval env [] xs = Some (before ++ after))).
Proof. exact own_removal_only. Qed.
Print Assumptions C07_own_removal_only.

Example C07_nonvacuous :
  (forall s, o_guard ex_o s = Ok (guard_text LRust (span_id ex_hash s))) /\
  (forall p m, In (p, m) ex_files_m -> layout (ex_disk p) (map fst (stm_statement m)) /\
     (forall s s', In s (map fst (stm_statement m)) -> In s' (map fst (stm_statement m)) ->
        span_id ex_hash s = span_id ex_hash s' -> s = s')) /\
  runs (w_trace (fst (ex_run ex_o ex_files_m None))) =
    [(ex_s1, s2t "T1"); (ex_s1, s2t "T2"); (ex_s2, s2t "T1"); (ex_s2, s2t "T2"); (ex_m1, s2t "T1"); (ex_m1, s2t "T2")].
Proof.
  split; [reflexivity|]. split; [|vm_compute; reflexivity].
  intros p m [E|[]]. injection E as <- <-. split; [exact ex_layout|].
  intros s s' [<-|[<-|[]]] [<-|[<-|[]]]; intros E; try reflexivity; vm_compute in E; discriminate.
Qed.

(** ** C08 *)
Theorem C08_one_row_per_candidate : forall hash16 contents o files fs db, paths_ok files ->
  distinct files -> db = Some [] ->
  let tr := w_trace (fst (run_from hash16 contents o files fs db)) in
  exists rows, w_db (fst (run_from hash16 contents o files fs db)) = Some rows /\
  NoDup (map rm_span rows) /\
  (forall x, In x rows -> exists c, In c (all_cands files) /\ row_of contents o tr c x) /\
  (forall c x, In c (all_cands files) -> In x rows -> rm_span x = c_span c -> ~ unjudged o tr c) /\
  (snd (run_from hash16 contents o files fs db) = Ok tt -> forall c, In c (all_cands files) ->
     ~ unjudged o tr c -> exists x, In x rows /\ rm_span x = c_span c).
Proof. exact rows_spec. Qed.
Print Assumptions C08_one_row_per_candidate.

(** No span is ever recorded twice, whatever the rows of earlier runs, and also if sources and tests changed in between. *)
Theorem C08_rows_unique : forall hash16 contents o files fs rows, paths_ok files ->
  NoDup (map (fun x => display_span (rm_span x)) rows) ->
  forall tr, moment tr (w_trace (fst (run_from hash16 contents o files fs (Some rows)))) ->
  NoDup (map (fun x => display_span (rm_span x)) (rows ++ inserts tr)).
Proof. intros h ct o fl fs rows P N tr M. exact (unique_moment h ct o fl fs rows tr P N M). Qed.
Print Assumptions C08_rows_unique.

Example C08_nonvacuous : project ex_files_m /\
  w_db (fst (ex_run ex_o ex_files_m (Some []))) =
    Some [Removal ex_s1 (s2t "x.a();") Failed; Removal ex_s2 (s2t "b();") Passed; Removal ex_m1 (s2t ".a()") Passed] /\
  w_db (fst (ex_run ex_o_ctrlc ex_files_m (Some []))) = Some [Removal ex_s1 (s2t "x.a();") Failed].
Proof. split; [exact ex_project_m|]. split; vm_compute; reflexivity. Qed.

(** ** C09 *)
(** Full property: for every project.  Proved: for projects whose candidates, in the order of the
    run, have ascending spans (statements and method calls not interleaved) and whose
    tests always say how they ended.  [history] covers any number of earlier runs, each
    stopped anywhere; the rows after a run that ends normally are one per candidate, in order,
    with the outcome the tests determine, so they are the same whatever the history. *)
Theorem C09_resume_partial : forall hash16 contents files fs b, project files ->
  ascending (map c_span (all_cands files)) -> (forall s t, b_result b s t <> XNone) ->
  forall o rows, history hash16 contents files fs b rows -> follows b o ->
  let tr := w_trace (fst (run_from hash16 contents o files fs (Some rows))) in
  let db := w_db (fst (run_from hash16 contents o files fs (Some rows))) in
  let r := snd (run_from hash16 contents o files fs (Some rows)) in
  (forall m, ~ In (EWarnChanged m) tr) /\
  (r = Err DbFailed -> exists tr, o_db_ok o tr = false) /\
  (forall s t, In (s, t) (runs tr) -> ~ In s (map rm_span rows)) /\
  (exists rows', db = Some (rows ++ rows')) /\
  (r = Ok tt -> exists all, db = Some all /\ Forall2 (is_row contents b) (all_cands files) all).
Proof. exact resume_equals. Qed.
Print Assumptions C09_resume_partial.

(** The same database as an uninterrupted run. *)
Theorem C09_same_database_partial : forall hash16 contents files fs b, project files ->
  ascending (map c_span (all_cands files)) -> (forall s t, b_result b s t <> XNone) ->
  forall o rows o0, history hash16 contents files fs b rows -> follows b o -> follows b o0 ->
  snd (run_from hash16 contents o files fs (Some rows)) = Ok tt ->
  snd (run_from hash16 contents o0 files fs (Some [])) = Ok tt ->
  w_db (fst (run_from hash16 contents o files fs (Some rows))) =
  w_db (fst (run_from hash16 contents o0 files fs (Some []))).
Proof.
  exact (fun h ct fl fs b P A J o rows o0 H F F0 R R0 =>
    match resume_equals h ct fl fs b P A J o rows H F with
    | conj _ (conj _ (conj _ (conj _ K))) =>
      match resume_equals h ct fl fs b P A J o0 [] (h_new h ct fl fs b) F0 with
      | conj _ (conj _ (conj _ (conj _ K0))) =>
        match K R, K0 R0 with
        | ex_intro _ a1 (conj E1 F1), ex_intro _ a2 (conj E2 F2) =>
          eq_trans E1 (eq_trans (f_equal Some (forall2_row_unique ct b (all_cands fl) a1 a2 F1 F2)) (eq_sym E2))
        end
      end
    end).
Qed.
Print Assumptions C09_same_database_partial.

(** A resumed run in a healthy environment does end normally. *)
Theorem C09_resume_ends_partial : forall hash16 contents files fs b, project files ->
  ascending (map c_span (all_cands files)) -> (forall s t, b_result b s t <> XNone) ->
  forall o rows l, history hash16 contents files fs b rows -> follows b o ->
  healthy hash16 contents l files o ->
  snd (run_from hash16 contents o files fs (Some rows)) = Ok tt.
Proof.
  intros h ct fl fs b P A J o rows l H F HE.
  destruct (run_healthy h ct l fl o HE (proj1 P) fs (Some rows)) as [E|E]; [exact E|].
  destruct (resume_equals h ct fl fs b P A J o rows H F) as (_ & K & _).
  destruct (K E) as (tr & D). rewrite (he_db _ _ _ _ _ HE tr) in D. discriminate.
Qed.
Print Assumptions C09_resume_ends_partial.

(** Tests that report that they did not run leave candidates without a row.  Then still: no recorded
    candidate is tested again, rows stay unique and right, and a run that ends normally
    leaves exactly the rows of the candidates that can be judged.  Missing: the run may warn and,
    if a dry run fails, hit the primary key (see C11 and C09_skip_refuted). *)
Theorem C09_resume_unjudged_partial : forall hash16 contents files fs b, project files ->
  ascending (map c_span (all_cands files)) ->
  forall o rows, history hash16 contents files fs b rows -> follows b o ->
  let tr := w_trace (fst (run_from hash16 contents o files fs (Some rows))) in
  let r := snd (run_from hash16 contents o files fs (Some rows)) in
  NoDup (map rm_span rows) /\
  (forall s t, In (s, t) (runs tr) -> ~ In s (map rm_span rows)) /\
  (r = Err DbFailed -> (exists tr, o_db_ok o tr = false) \/ exists tr p, dry_run_failed o tr p) /\
  (r = Ok tt -> exists all, w_db (fst (run_from hash16 contents o files fs (Some rows))) = Some all /\
     NoDup (map rm_span all) /\
     forall x, In x all <-> exists c, In c (all_cands files) /\ is_row contents b c x).
Proof.
  intros h ct fl fs b P A o rows H F.
  pose proof (hist_nodup h ct fl fs b P A rows H) as ND.
  destruct (resumed_sorted h ct o fl fs rows (proj1 P) (nodup_c fl P) (wf_all fl P) (hist_wf h ct fl fs b P rows H) A ND)
    as (_ & D & T & _).
  split; [exact ND|]. split; [intros s t Hst; destruct (T s t Hst) as (c & _ & <- & X); exact X|].
  split; [exact D|]. intros OK. eexists. split; [apply db_after, P|]. split.
  - apply (hist_nodup h ct fl fs b P A). econstructor; [exact H|exact F|exists []; reflexivity].
  - exact (final_rows h ct fl fs b P A o rows H F OK).
Qed.
Print Assumptions C09_resume_unjudged_partial.

Lemma ex_ascending : ascending (map c_span (all_cands ex_files)).
Proof. split; [vm_compute; reflexivity|exact I]. Qed.
Lemma ex_judged : forall s t, b_result ex_b s t <> XNone.
Proof. intros s t. cbn. destruct (_ && _); discriminate. Qed.
Lemma first_run hash16 contents files fs b o tr : follows b o ->
  moment tr (w_trace (fst (run_from hash16 contents o files fs (Some [])))) -> history hash16 contents files fs b (inserts tr).
Proof. intros F M. exact (h_run hash16 contents files fs b [] o tr (h_new _ _ _ _ _) F M). Qed.
Lemma ex_history rows : inserts (w_trace (fst (ex_run ex_o_ctrlc ex_files (Some [])))) = rows ->
  history ex_hash ex_disk ex_files ex_disk ex_b rows.
Proof.
  intros <-. apply first_run with (o := ex_o_ctrlc); [apply ex_follows|apply moment_refl].
Qed.
Example C09_nonvacuous : project ex_files /\ ascending (map c_span (all_cands ex_files)) /\
  inserts (w_trace (fst (ex_run ex_o_ctrlc ex_files (Some [])))) = [Removal ex_s1 (s2t "x.a();") Failed] /\
  history ex_hash ex_disk ex_files ex_disk ex_b [Removal ex_s1 (s2t "x.a();") Failed] /\
  follows ex_b ex_o /\ healthy ex_hash ex_disk (fun _ => LRust) ex_files ex_o /\
  runs (w_trace (fst (ex_run ex_o ex_files (Some [Removal ex_s1 (s2t "x.a();") Failed])))) =
    [(ex_s2, s2t "T1"); (ex_s2, s2t "T2")].
Proof.
  split; [exact ex_project|]. split; [exact ex_ascending|].
  assert (E : inserts (w_trace (fst (ex_run ex_o_ctrlc ex_files (Some [])))) = [Removal ex_s1 (s2t "x.a();") Failed])
    by (vm_compute; reflexivity).
  split; [exact E|]. split; [exact (ex_history _ E)|]. split; [apply ex_follows|].
  split; [apply ex_healthy_gen; now left|]. vm_compute. reflexivity.
Qed.

(** The full property is false: with a method call inside a statement, resuming even a
    completed run, in a healthy environment, gives a false warning that files have changed,
    tests a recorded candidate again and ends with a database error. *)
Theorem C09_resume_refuted : exists hash16 contents l files fs b o rows,
  project files /\ follows b o /\ healthy hash16 contents l files o /\
  snd (run_from hash16 contents o files fs (Some [])) = Ok tt /\
  w_db (fst (run_from hash16 contents o files fs (Some []))) = Some rows /\
  snd (run_from hash16 contents o files fs (Some rows)) = Err DbFailed /\
  (exists r, changes (w_trace (fst (run_from hash16 contents o files fs (Some rows)))) = [Missing r] /\
     In (rm_span r) (map c_span (all_cands files))) /\
  exists s t, In (s, t) (runs (w_trace (fst (run_from hash16 contents o files fs (Some rows))))) /\
     In s (map rm_span rows).
Proof.
  exists ex_hash, ex_disk, (fun _ => LRust), ex_files_m, ex_disk, ex_b, ex_o,
    [Removal ex_s1 (s2t "x.a();") Failed; Removal ex_s2 (s2t "b();") Passed; Removal ex_m1 (s2t ".a()") Passed].
  split; [exact ex_project_m|]. split; [apply ex_follows|]. split; [apply ex_healthy_gen; now right|].
  split; [vm_compute; reflexivity|]. split; [vm_compute; reflexivity|]. split; [vm_compute; reflexivity|]. split.
  - exists (Removal ex_m1 (s2t ".a()") Passed). split; [vm_compute; reflexivity|]. cbn. auto.
  - exists ex_m1, (s2t "T1"). split; [vm_compute; auto|]. cbn. auto.
Qed.
Print Assumptions C09_resume_refuted.

(** And a dry run that fails on resumption, with an earlier candidate unjudged, makes the run insert
    rows that exist. *)
Definition ex_b_none : behaviour := Behaviour (fun _ => true) (fun _ _ => true)
  (fun s t => if Nat.eqb (column (sp_start s)) 0 then XNone else XPassed).
Definition ex_b_dry : behaviour := Behaviour (fun _ => false) (fun _ _ => true) (fun s t => XPassed).
Theorem C09_skip_refuted : exists hash16 contents files fs o1 o2 rows,
  project files /\ ascending (map c_span (all_cands files)) /\
  snd (run_from hash16 contents o1 files fs (Some [])) = Ok tt /\
  w_db (fst (run_from hash16 contents o1 files fs (Some []))) = Some rows /\
  (forall tr, o_db_ok o2 tr = true) /\
  snd (run_from hash16 contents o2 files fs (Some rows)) = Err DbFailed.
Proof.
  exists ex_hash, ex_disk, ex_files, ex_disk, (ex_oracle ex_b_none (fun _ => false) (fun _ => None)),
    (ex_oracle ex_b_dry (fun _ => false) (fun _ => None)), [Removal ex_s2 (s2t "b();") Passed].
  split; [exact ex_project|]. split; [exact ex_ascending|].
  split; [vm_compute; reflexivity|]. split; [vm_compute; reflexivity|]. split; [reflexivity|]. vm_compute. reflexivity.
Qed.
Print Assumptions C09_skip_refuted.

(** ** C10 *)
Theorem C10_skip_is_merge : forall spans past mm n spans' past',
  ascending (map c_span spans) -> ascending (map rm_span past) ->
  skip_past_removals spans past = (mm, n, spans', past') ->
  exists skipped dropped, spans = skipped ++ spans' /\ past = dropped ++ past' /\ n = length skipped /\
    (forall c, In c skipped -> In (c_span c) (map rm_span past)) /\
    (forall c rest, spans' = c :: rest -> ~ In (c_span c) (map rm_span past)) /\
    (forall c rest, spans' = c :: rest -> forall r, In r past -> (In r past' <-> span_lt (c_span c) (rm_span r))) /\
    (spans' = [] -> forall r, In r past' -> ~ In (rm_span r) (map c_span spans)).
Proof.
  intros spans past mm n spans' past' A B E. apply ascending_sorted in A, B.
  destruct (skip_past_merge _ _ _ _ _ _ _ _ _ (Nat.le_refl _) A B E) as (a & b & E1 & E2 & E3 & E4 & E5 & E6 & _).
  exists a, b. split; [exact E1|]. split; [exact E2|]. split; [exact E3|].
  assert (SPL : forall r, In r past -> In r b \/ In r past') by (intros r Hr; rewrite E2 in Hr; now apply in_app_or).
  assert (DJ : forall r, In r b -> In r past' -> False).
  { intros r H1 H2. apply sorted_nodup in B. rewrite E2, map_app in B.
    eapply (nodup_app_disjoint _ _ (rm_span r) B); now apply in_map. }
  split; [intros c Hc; rewrite E2, map_app; apply in_or_app; left; now apply E4|]. split; [|split].
  - intros c rest -> H. apply in_map_iff in H as (r & X & Hr). destruct (SPL r Hr) as [Hr'|Hr'].
    + pose proof (E5 r Hr' c (or_introl eq_refl)) as Y. rewrite X in Y. exact (span_lt_irrefl _ Y).
    + pose proof (E6 c rest eq_refl r Hr') as Y. rewrite X in Y. exact (span_lt_irrefl _ Y).
  - intros c rest -> r Hr. split; intros X; [now apply (E6 c rest)|]. destruct (SPL r Hr) as [Hr'|Hr']; [|exact Hr'].
    destruct (span_lt_irrefl _ (span_lt_trans _ _ _ X (E5 r Hr' c (or_introl eq_refl)))).
  - intros -> r Hr Hs. rewrite app_nil_r in E1. subst a. apply in_map_iff in Hs as (c & X & Hc).
    pose proof (E4 c Hc) as Y. apply sorted_nodup in B. rewrite E2, map_app in B.
    eapply (nodup_app_disjoint _ _ (rm_span r) B); [now rewrite <- X|now apply in_map].
Qed.
Print Assumptions C10_skip_is_merge.

Definition ex_row s := Removal s (s2t "t") Passed.
Definition ex_at n : span := Span ex_path (LC n 0) (LC n 4).
Example C10_nonvacuous :
  let cs := map (fun n => Cand (ex_at n) Statement ex_tests) [1; 2; 4; 5] in
  let rs := map (fun n => ex_row (ex_at n)) [1; 2; 3; 5] in
  ascending (map c_span cs) /\ ascending (map rm_span rs) /\
  skip_past_removals cs rs = (Some (Unexpected (ex_row (ex_at 5))), 2, skipn 2 cs, skipn 3 rs).
Proof. repeat split; vm_compute; reflexivity. Qed.

(** ** C11 *)
(** One call: what the mismatch it reports says about candidates and records. *)
Theorem C11_mismatch_meaning : forall spans past mm n spans' past',
  ascending (map c_span spans) -> ascending (map rm_span past) ->
  skip_past_removals spans past = (mm, n, spans', past') ->
  match mm with
  | Some (Missing r) => In r past /\ ~ In (rm_span r) (map c_span spans)
  | Some (Unexpected r) => In r past /\ exists c, In c spans /\ ~ In (c_span c) (map rm_span past) /\ span_lt (c_span c) (rm_span r)
  | None => (forall r, In r past -> In (rm_span r) (map c_span spans) \/ In r past') /\ (spans' = [] \/ past' = [])
  end.
Proof.
  intros spans past mm n spans' past' A B E.
  destruct (C10_skip_is_merge _ _ _ _ _ _ A B E) as (a0 & b0 & F1 & F2 & _ & _ & F5 & F6 & _).
  apply ascending_sorted in A, B.
  destruct (skip_past_merge _ _ _ _ _ _ _ _ _ (Nat.le_refl _) A B E) as (a & b & E1 & E2 & _ & _ & _ & E6 & E7 & _).
  specialize (E7 eq_refl). unfold says_mismatch in E7. destruct mm as [[r|r]|].
  - destruct E7 as (_ & b1 & b2 & -> & N & _). split; [|exact N]. rewrite E2. apply in_or_app. left. apply in_or_app. right. now left.
  - destruct E7 as (c & cs & rs & -> & ->). split; [rewrite E2; apply in_or_app; right; now left|].
    exists c. split; [rewrite E1; apply in_or_app; right; now left|]. split; [now apply (F5 c cs)|]. apply (E6 c cs); [reflexivity|now left].
  - destruct E7 as (SP & H). split; [|exact SP]. intros r Hr. rewrite E2 in Hr. apply in_app_or in Hr as [Hr|Hr]; [left; now apply H|now right].
Qed.
Print Assumptions C11_mismatch_meaning.

(** A whole run. *)
Theorem C11_warnings_sound : forall hash16 contents o files fs rows, project files ->
  (forall r, In r rows -> wf_span (rm_span r)) -> NoDup (map rm_span rows) ->
  ascending (map c_span (all_cands files)) ->
  forall m, In (EWarnChanged m) (w_trace (fst (run_from hash16 contents o files fs (Some rows)))) ->
  match m with
  | Missing r => In r rows /\ ~ In (rm_span r) (map c_span (all_cands files))
  | Unexpected r => In r rows /\ exists c, In c (all_cands files) /\
      ~ In (c_span c) (map rm_span rows) /\ span_lt (c_span c) (rm_span r)
  end.
Proof.
  intros h ct o fl fs rows P WR ND A.
  destruct (resumed_sorted h ct o fl fs rows (proj1 P) (nodup_c fl P) (wf_all fl P) WR A ND) as (K & _). exact K.
Qed.
Print Assumptions C11_warnings_sound.

(** No warning if the rows, sorted, are those of the first candidates (in any arrangement). *)
Theorem C11_no_false_warning : forall hash16 contents o files fs rows k, project files ->
  (forall r, In r rows -> wf_span (rm_span r)) ->
  map rm_span (sort_removals rows) = firstn k (map c_span (all_cands files)) ->
  forall m, ~ In (EWarnChanged m) (w_trace (fst (run_from hash16 contents o files fs (Some rows)))).
Proof.
  intros h ct o fl fs rows k P WR E m H.
  destruct (resumed_aligned h ct o fl fs rows (proj1 P) (nodup_c fl P) (wf_all fl P) WR k E) as (K & _). exact (K m H).
Qed.
Print Assumptions C11_no_false_warning.

(** A project that did not change can still be reported as changed: a candidate whose test did
    not run has no row. *)
Example C11_unjudged_warns :
  let o := ex_oracle ex_b_none (fun _ => false) (fun _ => None) in
  let rows := [Removal ex_s2 (s2t "b();") Passed] in
  w_db (fst (ex_run o ex_files (Some []))) = Some rows /\ snd (ex_run o ex_files (Some [])) = Ok tt /\
  In (Unexpected (Removal ex_s2 (s2t "b();") Passed)) (changes (w_trace (fst (ex_run o ex_files (Some rows))))).
Proof. repeat split; try (vm_compute; reflexivity). vm_compute. now left. Qed.

(** ** C12 *)
Theorem C12_ctrlc_result : forall hash16 contents o files fs db, paths_ok files ->
  let tr := w_trace (fst (run_from hash16 contents o files fs db)) in
  (snd (run_from hash16 contents o files fs db) = Err CtrlC <-> In ECtrlC tr) /\
  (forall later pre, tr = later ++ ECtrlC :: pre ->
     ~ In ECtrlC pre /\ forall e, In e later -> exists p, e = ERestore p).
Proof. exact ctrlc_result. Qed.
Print Assumptions C12_ctrlc_result.

(** [early] is the history when the signal arrived, [later] what follows.  At most one candidate
    is tested after that; no outcome is recorded unless the signal came between the last look
    at the flag and the insertion. *)
Theorem C12_ctrlc_stops : forall hash16 contents o files fs db, paths_ok files -> arrives o ->
  forall early later,
  w_trace (fst (run_from hash16 contents o files fs db)) = later ++ early -> o_ctrlc o early = true ->
  (forall r, In (EInsert r) later -> rm_outcome r = Skipped \/ exists pre, early = EPoll :: pre) /\
  (forall s1 t1 f1 s2 t2 f2, In (EExec s1 t1 f1) later -> In (EExec s2 t2 f2) later -> s1 = s2) /\
  (snd (run_from hash16 contents o files fs db) = Ok tt -> forall s t f, ~ In (EExec s t f) later).
Proof. exact ctrlc_stops. Qed.
Print Assumptions C12_ctrlc_stops.

(** Earlier rows stay: the database only grows. *)
Theorem C12_rows_stay : forall hash16 contents o files fs rows, paths_ok files ->
  w_db (fst (run_from hash16 contents o files fs (Some rows))) =
  Some (rows ++ inserts (w_trace (fst (run_from hash16 contents o files fs (Some rows))))).
Proof. exact db_after. Qed.
Print Assumptions C12_rows_stay.

Example C12_nonvacuous : arrives ex_o_ctrlc /\
  snd (ex_run ex_o_ctrlc ex_files (Some [])) = Err CtrlC /\
  runs (w_trace (fst (ex_run ex_o_ctrlc ex_files (Some [])))) =
    [(ex_s1, s2t "T1"); (ex_s1, s2t "T2"); (ex_s2, s2t "T1"); (ex_s2, s2t "T2")].
Proof.
  split; [|split; vm_compute; reflexivity]. intros a b (later & ->). unfold ex_o_ctrlc, ex_oracle, o_ctrlc. intros H. apply Nat.leb_le in H. apply Nat.leb_le.
  unfold runs in *. rewrite rev_app_distr, flat_map_app, app_length. lia.
Qed.

(** ** C13 *)
Theorem C13_outcome_justified : forall hash16 contents o files fs db, paths_ok files -> forall r,
  let tr := w_trace (fst (run_from hash16 contents o files fs db)) in
  In (EConsole r) tr \/ In (EInsert r) tr -> exists c, In c (all_cands files) /\ row_of contents o tr c r.
Proof. exact reported_justified. Qed.
Print Assumptions C13_outcome_justified.

Theorem C13_passed_iff_all_passed : forall hash16 contents o files fs db, paths_ok files -> forall c r,
  let tr := w_trace (fst (run_from hash16 contents o files fs db)) in
  distinct files -> In c (all_cands files) -> In (EConsole r) tr -> rm_span r = c_span c ->
  (rm_outcome r = Passed <-> forall t, In t (c_tests c) -> ran_with o tr (c_span c) t XPassed).
Proof. exact passed_iff. Qed.
Print Assumptions C13_passed_iff_all_passed.

(** A test is built only after every earlier test of the candidate has passed: so no test comes
    after one that did not. *)
Theorem C13_tests_in_order : forall hash16 contents o files fs db, paths_ok files -> forall s t f pre,
  moment (EExec s t f :: pre) (w_trace (fst (run_from hash16 contents o files fs db))) ->
  exists c a b, In c (all_cands files) /\ c_span c = s /\ c_tests c = a ++ t :: b /\
    forall t', In t' a -> ran_with o pre s t' XPassed.
Proof. exact tests_in_order. Qed.
Print Assumptions C13_tests_in_order.

(** When behaviour is fixed, the outcome of a candidate is its [verdict]. *)
Theorem C13_outcome_is_verdict : forall hash16 contents files fs b, project files ->
  forall o db c r, follows b o -> In c (all_cands files) -> rm_span r = c_span c ->
  let tr := w_trace (fst (run_from hash16 contents o files fs db)) in
  In (EConsole r) tr \/ In (EInsert r) tr -> verdict b c = Some (rm_outcome r).
Proof.
  intros h ct fl fs b P o db c r F Hc E tr H.
  destruct (reported_justified h ct o fl fs db (proj1 P) r H) as (c' & Hc' & R).
  assert (c' = c). { eapply (NoDup_map_inv_eq c_span); [apply P|exact Hc'|exact Hc|]. rewrite <- E. symmetry. apply R. }
  subst c'. now apply (row_verdict h ct fl fs b P o db c r F Hc R).
Qed.
Print Assumptions C13_outcome_is_verdict.

Example C13_nonvacuous :
  consoles (w_trace (fst (ex_run ex_o ex_files_m None))) =
    [Removal ex_s1 (s2t "x.a();") Failed; Removal ex_s2 (s2t "b();") Passed; Removal ex_m1 (s2t ".a()") Passed] /\
  verdict ex_b (Cand ex_s1 Statement ex_tests) = Some Failed /\
  verdict ex_b_none (Cand ex_s1 Statement ex_tests) = None.
Proof. repeat split; vm_compute; reflexivity. Qed.
