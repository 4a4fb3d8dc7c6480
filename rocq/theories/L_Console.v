(** Lemmas for C82: a run reports exactly what it records. *)
From Verif Require Import Base M_Text S_Text L_Text M_Rewriter M_Span S_Span L_Span M_Instr M_Run S_Run L_Run L_RunFinal.
From Coq Require Import List.
Local Open Scope list_scope.

(** Not the mark of a candidate whose file's dry run failed. *)
Definition judged (r : removal) : bool := match rm_outcome r with Skipped => false | _ => true end.
Definition unreported (e : event) : Prop := match e with EInsert _ | EConsole _ => False | _ => True end.

Section Pass.
Context (hash16 : text -> text) (contents : path -> text) (o : oracle).
Definition matched (tr : trace) : Prop := consoles tr = filter judged (inserts tr).
Definition bal (w : world) : Prop := w_db w <> None /\ matched (w_trace w).
Definition even {A} (m : M A) : Prop := forall w, bal w -> bal (fst (m w)).

Lemma matched_log e tr : unreported e -> matched tr -> matched (e :: tr).
Proof. intros U H. unfold matched, consoles, inserts in *. cbn [rev]. rewrite !flat_map_app, filter_app, H. destruct e; try destruct U; cbn; rewrite !app_nil_r; reflexivity. Qed.
Lemma matched_both r tr : judged r = true -> matched tr -> matched (EConsole r :: EInsert r :: tr).
Proof. intros J H. unfold matched, consoles, inserts in *. cbn [rev]. rewrite !flat_map_app, !filter_app, H. cbn. rewrite J. cbn. rewrite !app_nil_r. reflexivity. Qed.
Lemma matched_skip r tr : judged r = false -> matched tr -> matched (EInsert r :: tr).
Proof. intros J H. unfold matched, consoles, inserts in *. cbn [rev]. rewrite !flat_map_app, !filter_app, H. cbn. rewrite J. cbn. rewrite !app_nil_r. reflexivity. Qed.
Lemma bal_log e w : unreported e -> bal w -> bal (log e w).
Proof. intros U [D H]. split; [exact D|]. apply matched_log; assumption. Qed.
Lemma bal_same w w' : w_db w' = w_db w -> w_trace w' = w_trace w -> bal w -> bal w'.
Proof. intros E1 E2 [D H]. split; rewrite ?E1, ?E2; assumption. Qed.
Lemma bal_restore b w : bal w -> bal (restore b w).
Proof. intros B. apply bal_log; [exact I|]. apply (bal_same w); [reflexivity|reflexivity|exact B]. Qed.
Lemma bal_drop w : bal w -> bal (drop_ib w).
Proof. intros B. unfold drop_ib. destruct (w_ib w) as [b|]; [|exact B]. apply (bal_same (restore b w)); [reflexivity|reflexivity|]. apply bal_restore, B. Qed.

Lemma ev_ret {A} (a : A) : even (ret a). Proof. intros w B. exact B. Qed.
Lemma ev_panic {A} : even (@panic A). Proof. intros w B. exact B. Qed.
Lemma ev_fail {A} e : even (@fail A e). Proof. intros w B. exact B. Qed.
Lemma ev_bind {A B} (m : M A) (f : A -> M B) : even m -> (forall a, even (f a)) -> even (mbind m f).
Proof. intros Hm Hf w Hw. unfold mbind. specialize (Hm w Hw). destruct (m w) as [w' [a|e|]]; cbn in *; [apply Hf, Hm|exact Hm|exact Hm]. Qed.
Lemma ev_finally {A} (m : M A) c : even m -> (forall w, bal w -> bal (c w)) -> even (finally m c).
Proof. intros Hm Hc w Hw. unfold finally. specialize (Hm w Hw). destruct (m w) as [w' r]. apply Hc, Hm. Qed.
Lemma ev_lift {A} (r : res unit A) : even (lift r). Proof. intros w B. destruct r; exact B. Qed.
Lemma ev_emit e : unreported e -> even (emit_event e). Proof. intros U w B. apply bal_log; assumption. Qed.
Lemma ev_warn x e : unreported e -> even (warn o x e).
Proof. intros U. apply ev_bind; [apply ev_emit, U|]. intros _. destruct (o_denied o x); [apply ev_fail|apply ev_ret]. Qed.
Lemma ev_ctrlc : even (check_ctrlc o).
Proof. intros w B. unfold check_ctrlc. destruct (_ || _); (apply bal_log; [exact I|]; apply (bal_same w); [reflexivity|reflexivity|exact B]). Qed.
Lemma ev_backup p : even (backup_new o p).
Proof. intros w B. unfold backup_new. destruct (o_backup_ok _ _ _); [apply bal_log; [exact I|exact B]|exact B]. Qed.
Lemma ev_write p t : even (write_file o p t).
Proof. intros w B. unfold write_file. destruct (o_write _ _ _); (apply bal_log; [exact I|]; apply (bal_same w); [reflexivity|reflexivity|exact B]). Qed.
Lemma ev_progress mm n : even (update_progress o mm n).
Proof. apply ev_bind; [destruct mm; [apply ev_warn, I|apply ev_ret]|]. intros _ w B. apply (bal_same w); [reflexivity|reflexivity|exact B]. Qed.
Lemma ev_source s : even (source_text_m contents s).
Proof. unfold source_text_m. destruct (source_text _ _); [apply ev_ret|apply ev_fail|apply ev_panic]. Qed.
Lemma ev_emit_removal r : judged r = true -> even (emit o r).
Proof.
  intros J w [D H]. unfold emit, mbind, db_insert. destruct (w_db w) as [rows|] eqn:DB; [|congruence]. destruct (existsb _ _); [split; [cbn; congruence|exact H]|].
  destruct (o_db_ok _ _); [|split; [cbn; congruence|exact H]]. cbn. split; [discriminate|]. apply matched_both; assumption.
Qed.
Lemma ev_skip_present l : even (skip_present contents o l).
Proof.
  induction l as [|c l IH]; [apply ev_ret|]. cbn. apply ev_bind.
  - intros w B. destruct (w_db w) as [rows|] eqn:DB; [|exact B]. revert w rows DB B.
    assert (K : even (t <- source_text_m contents (c_span c) ;; db_insert o (Removal (c_span c) t Skipped))).
    { apply ev_bind; [apply ev_source|]. intros t w [D H]. unfold db_insert. destruct (w_db w) as [rows|] eqn:DB; [|congruence]. destruct (existsb _ _); [split; [cbn; congruence|exact H]|].
      destruct (o_db_ok _ _); [|split; [cbn; congruence|exact H]]. cbn. split; [discriminate|]. apply matched_skip; [reflexivity|exact H]. }
    intros w rows _ B. apply K, B.
  - intros _. apply ev_bind; [exact IH|]. intros n. apply ev_ret.
Qed.
Lemma ev_instrument_write p l : even (instrument_and_write contents o p l).
Proof.
  unfold instrument_and_write. apply ev_bind; [intros w; apply ev_lift|]. intros ex. apply ev_bind; [apply ev_lift|]. intros _.
  destruct (instrument _ _ _ _ _ _); [apply ev_write|apply ev_panic].
Qed.
Lemma ev_instrument p l : even (instrument_statements contents o p l).
Proof.
  intros w B. unfold instrument_statements. pose proof (ev_backup p w B) as B1. destruct (backup_new o p w) as [w1 [b|e|]]; cbn [fst] in B1; [|exact B1|exact B1].
  assert (K : even (instrument_and_write contents o p l ;; (fun w => (log (EBuild p (w_fs w)) w, Ok (o_build o (w_trace w) p))))).
  { apply ev_bind; [apply ev_instrument_write|]. intros _ v Bv. apply bal_log; [exact I|exact Bv]. }
  specialize (K w1 B1). destruct (mbind _ _ w1) as [w2 [[[]|e|]|e|]]; cbn [fst] in K; try (apply bal_restore, K).
  - apply (bal_same w2); [reflexivity|reflexivity|exact K].
  - pose proof (ev_warn InstrumentationNonbuildable (EWarn InstrumentationNonbuildable) I w2 K) as B3. destruct (warn o _ _ w2) as [w3 [[]|e'|]]; apply bal_restore, B3.
Qed.
Lemma ev_removal {A} s (k : M A) : even k -> even (with_removal contents o s k).
Proof.
  intros K w B. unfold with_removal. pose proof (ev_backup (sp_path s) w B) as B1. destruct (backup_new o _ w) as [w1 [b|e|]]; cbn [fst] in B1; [|exact B1|exact B1].
  apply ev_finally; [|apply bal_restore|exact B1]. destruct (remove_text _ _) as [[x t]|]; [|apply ev_panic]. apply ev_bind; [apply ev_write|]. intros _. exact K.
Qed.
Lemma ev_test e s t : even (run_test hash16 o e s t).
Proof.
  intros w B. unfold run_test. cbv zeta. assert (B1 : bal (log (EExec s t (w_fs w)) w)) by (apply bal_log; [exact I|exact B]).
  destruct (o_exec _ _ _ _) as [[[]|]|x|]; try exact B1; [|destruct e; exact B1]. destruct (o_perform _ _ _ _) as [[]|x|]; (apply bal_log; [exact I|exact B1]).
Qed.
Lemma ev_fold e s l : forall acc, even (fold_tests hash16 o e s acc l).
Proof. induction l as [|t l IH]; intros acc; [apply ev_ret|]. cbn. apply ev_bind; [|intros a; apply IH]. destruct acc as [[]|]; try apply ev_ret; apply ev_test. Qed.

(** The fold never says that a candidate was skipped. *)
Lemma fold_judged e s l : forall acc w w' x, acc <> Some Skipped -> fold_tests hash16 o e s acc l w = (w', Ok (Some x)) -> x <> Skipped.
Proof.
  induction l as [|t l IH]; intros acc w w' x N H; cbn in H; [injection H as _ E; congruence|].
  unfold mbind in H. destruct acc as [[]|]; cbn [ret] in H; try (eapply IH; [|exact H]; congruence).
  destruct (run_test hash16 o e s t w) as [w1 [a|e1|]] eqn:RT; try discriminate. eapply IH; [|exact H].
  unfold run_test in RT. cbv zeta in RT. destruct (o_exec _ _ _ _) as [[[]|]|y|]; try discriminate.
  - destruct (o_perform _ _ _ _) as [[]|y|]; try discriminate; injection RT as _ <-; congruence.
  - destruct e; [|discriminate]. injection RT as _ <-. congruence.
Qed.
Lemma ev_candidate e c t : even (test_candidate hash16 o e c t).
Proof.
  intros w B. unfold test_candidate, mbind at 1. pose proof (ev_fold e (c_span c) (c_tests c) (Some Passed) w B) as B1.
  destruct (fold_tests _ _ _ _ _ _ w) as [w1 [out|e1|]] eqn:F; cbn [fst] in B1; [|exact B1|exact B1].
  revert w1 F B1. intros w1 F B1. apply ev_bind; [apply ev_ctrlc| |exact B1]. intros _. apply ev_bind; [|intros _; apply ev_progress].
  destruct out as [x|]; [|apply ev_ret]. apply ev_emit_removal. unfold judged. cbn [rm_outcome]. pose proof (fold_judged _ _ _ _ _ _ _ (ltac:(discriminate) : Some Passed <> Some Skipped) F) as N. destruct x; congruence.
Qed.
Lemma ev_one c : even (one_candidate hash16 contents o c).
Proof.
  apply ev_bind.
  - intros w B. cbn. destruct (c_kind c); [exact B|apply bal_drop, B].
  - intros _. apply ev_bind; [apply ev_source|]. intros t w B. cbv zeta.
    destruct (match w_ib w with None => true | Some _ => _ end); [apply ev_removal; [apply ev_candidate|exact B]|apply ev_candidate, B].
Qed.
Lemma ev_loop f : forall spans past, even (candidates_loop hash16 contents o f spans past).
Proof.
  induction f as [|f IH]; intros spans past; cbn; destruct (skip_past_removals spans past) as [[[mm n] sp'] past'];
    (apply ev_bind; [apply ev_progress|]; intros _; destruct sp' as [|c sp']; [apply ev_ret|]; apply ev_bind; [apply ev_one|]; intros _); [apply ev_ret|apply IH].
Qed.
Lemma ev_file p m past : even (one_file hash16 contents o p m past).
Proof.
  unfold one_file. destruct (skip_past_removals _ _) as [[[mm n] sp'] past']. apply ev_bind; [apply ev_progress|]. intros _. destruct sp' as [|c sp']; [apply ev_ret|].
  apply ev_bind; [intros w B; apply bal_log; [exact I|exact B]|]. intros [[]|u|].
  - apply ev_bind; [apply ev_ret|]. intros _. apply ev_bind; [apply ev_ctrlc|]. intros _. apply ev_finally; [|apply bal_drop]. apply ev_bind; [apply ev_instrument|]. intros _. apply ev_loop.
  - apply ev_bind; [apply ev_warn, I|]. intros _. apply ev_bind; [apply ev_ctrlc|]. intros _. apply ev_bind; [apply ev_skip_present|]. intros k. apply ev_bind; [apply ev_progress|]. intros _. apply ev_ret.
  - apply ev_panic.
Qed.
Lemma ev_run files : forall past, even (run hash16 contents o files past).
Proof. induction files as [|[p m] files IH]; intros past; [apply ev_ret|]. cbn [run]. apply ev_bind; [apply ev_file|]. intros past'. apply IH. Qed.
End Pass.

(** With a database, the removals reported are those recorded, without the skipped ones. *)
Lemma reported_is_recorded hash16 contents o files fs rows :
  let tr := w_trace (fst (run_from hash16 contents o files fs (Some rows))) in consoles tr = filter judged (inserts tr).
Proof. apply (ev_run hash16 contents o files (past_of (Some rows)) (start fs (Some rows))). split; [discriminate|reflexivity]. Qed.
