(** Lemmas for C83: a run with a database and the same run without one. *)
From Verif Require Import Base M_Text M_Rewriter M_Span M_Instr M_Run S_Run L_Run.
From Coq Require Import List.
Local Open Scope list_scope.

(** The insertions are left out of a history. *)
Definition is_insert (e : event) : bool := match e with EInsert _ => true | _ => false end.
Definition unstored (tr : trace) : trace := filter (fun e => negb (is_insert e)) tr.
(** What the tests, the back end, the disk and the keyboard do does not depend on what was stored. *)
Record database_blind (o : oracle) : Prop := Blind {
  bl_dry : forall tr p, o_dry_run o (unstored tr) p = o_dry_run o tr p;
  bl_ctrlc : forall tr, o_ctrlc o (unstored tr) = o_ctrlc o tr;
  bl_backup : forall tr p, o_backup_ok o (unstored tr) p = o_backup_ok o tr p;
  bl_extra : forall tr p n, o_extra o (unstored tr) p n = o_extra o tr p n;
  bl_write : forall tr p, o_write o (unstored tr) p = o_write o tr p;
  bl_build : forall tr p, o_build o (unstored tr) p = o_build o tr p;
  bl_exec : forall tr t s, o_exec o (unstored tr) t s = o_exec o tr t s;
  bl_perform : forall tr t s, o_perform o (unstored tr) t s = o_perform o tr t s
}.

Section Sim.
Context (hash16 : text -> text) (contents : path -> text) (o : oracle).
Hypothesis BL : database_blind o.

(** The world without a database that goes with a world with one. *)
Definition bare (w : world) : world := World (w_fs w) None (unstored (w_trace w)) (w_ctrlc w) (w_ib w) (w_progress w).
(** Failures that only a run with a database has. *)
Definition alike {A} (r : res run_error A) : Prop := match r with Ok _ => True | Err DbFailed | Err TextFailed | Panic => False | Err _ => True end.
(** [f], with a database, and [f'], without: the same, unless the database gets in the way. *)
Definition goes_with {A} (f f' : M A) : Prop := forall w, alike (snd (f w)) -> f' (bare w) = (bare (fst (f w)), snd (f w)).

Lemma gw_bind {A B} (f f' : M A) (g g' : A -> M B) : goes_with f f' -> (forall a, goes_with (g a) (g' a)) -> goes_with (mbind f g) (mbind f' g').
Proof.
  intros F G w. unfold mbind. specialize (F w). destruct (f w) as [w1 [a|e|]]; cbn [fst snd] in *; intros K; rewrite (F ltac:(first [exact I|exact K])); [|reflexivity|reflexivity].
  exact (G a w1 K).
Qed.
Lemma gw_ret {A} (a : A) : goes_with (ret a) (ret a). Proof. intros w _. reflexivity. Qed.
Lemma gw_fail {A} e : goes_with (@fail A e) (fail e). Proof. intros w _. reflexivity. Qed.
Lemma gw_panic {A} : goes_with (@panic A) panic. Proof. intros w []. Qed.
Lemma bare_log e w : is_insert e = false -> bare (log e w) = log e (bare w).
Proof. intros E. unfold bare, log, unstored. cbn. rewrite E. reflexivity. Qed.
Lemma bare_restore b w : bare (restore b w) = restore b (bare w).
Proof. unfold restore. rewrite bare_log by reflexivity. reflexivity. Qed.
Lemma bare_drop w : bare (drop_ib w) = drop_ib (bare w).
Proof. unfold drop_ib. cbn [w_ib bare]. destruct (w_ib w); [|reflexivity]. rewrite <- bare_restore. reflexivity. Qed.
Lemma gw_finally {A} (f f' : M A) c : (forall w, bare (c w) = c (bare w)) -> goes_with f f' -> goes_with (finally f c) (finally f' c).
Proof.
  intros C F w. unfold finally. specialize (F w). destruct (f w) as [w1 r]; cbn [fst snd] in *. intros K. rewrite (F K). rewrite C. reflexivity.
Qed.
Lemma gw_event e : is_insert e = false -> goes_with (emit_event e) (emit_event e).
Proof. intros E w _. unfold emit_event. rewrite <- bare_log by exact E. reflexivity. Qed.
Lemma gw_warn k e : is_insert e = false -> goes_with (warn o k e) (warn o k e).
Proof. intros E. unfold warn. apply gw_bind; [apply gw_event, E|]. intros _. destruct (o_denied o k); [apply gw_fail|apply gw_ret]. Qed.
Lemma gw_ctrlc : goes_with (check_ctrlc o) (check_ctrlc o).
Proof.
  intros w _. unfold check_ctrlc. cbn [w_ctrlc w_trace bare]. rewrite (bl_ctrlc o BL). destruct (w_ctrlc w || o_ctrlc o (w_trace w)); reflexivity.
Qed.
Lemma gw_lift {A} (r : res unit A) : goes_with (lift r) (lift r).
Proof. destruct r; intros w K; [reflexivity|reflexivity|destruct K]. Qed.
Lemma backup_bare p w : backup_new o p (bare w) = (bare (fst (backup_new o p w)), snd (backup_new o p w)).
Proof. unfold backup_new. cbn [w_trace bare w_fs]. rewrite (bl_backup o BL). destruct (o_backup_ok o (w_trace w) p); cbn [fst snd]; [rewrite bare_log by reflexivity|]; reflexivity. Qed.
Lemma gw_write p t : goes_with (write_file o p t) (write_file o p t).
Proof. intros w _. unfold write_file. cbn [w_trace bare w_fs]. rewrite (bl_write o BL). destruct (o_write o (w_trace w) p); cbn [fst snd]; rewrite bare_log by reflexivity; reflexivity. Qed.
Lemma gw_progress mm n : goes_with (update_progress o mm n) (update_progress o mm n).
Proof. unfold update_progress. apply gw_bind; [destruct mm; [apply gw_warn; reflexivity|apply gw_ret]|]. intros _ w _. reflexivity. Qed.
Lemma gw_text s : goes_with (source_text_m contents s) (source_text_m contents s).
Proof. unfold source_text_m. destruct (source_text _ s); [apply gw_ret|apply gw_fail|apply gw_panic]. Qed.
Lemma gw_insert r : goes_with (db_insert o r) (db_insert o r).
Proof.
  intros w. unfold db_insert. cbn [w_db bare]. destruct (w_db w) as [rows|]; [|reflexivity]. destruct (existsb _ rows); [intros []|]. destruct (o_db_ok o (w_trace w)); [|intros []].
  intros _. reflexivity.
Qed.
Lemma gw_skip spans : goes_with (skip_present contents o spans) (skip_present contents o spans).
Proof.
  induction spans as [|c rest IH]; [apply gw_ret|]. cbn [skip_present]. apply gw_bind.
  - intros w. cbn [w_db bare]. destruct (w_db w) as [rows|] eqn:D; [|reflexivity]. unfold mbind, source_text_m. destruct (source_text _ _) as [t|e|]; cbn [fst snd ret fail panic]; try (intros []; fail).
    intros K. pose proof (gw_insert (Removal (c_span c) t Skipped) w K) as G. unfold db_insert in *. cbn [w_db bare] in *. rewrite D in *. exact G.
  - intros _. apply gw_bind; [exact IH|]. intros n. apply gw_ret.
Qed.
Lemma gw_iaw p spans : goes_with (instrument_and_write contents o p spans) (instrument_and_write contents o p spans).
Proof.
  unfold instrument_and_write. apply gw_bind.
  - intros w. cbn [w_trace bare]. rewrite (bl_extra o BL). apply gw_lift.
  - intros extra. apply gw_bind; [apply gw_lift|]. intros _. destruct (instrument _ _ _ _ _ _); [apply gw_write|apply gw_panic].
Qed.
Lemma gw_instrument p spans : goes_with (instrument_statements contents o p spans) (instrument_statements contents o p spans).
Proof.
  intros w. unfold instrument_statements. rewrite backup_bare. destruct (backup_new o p w) as [w1 [b|e|]]; cbn [fst snd]; try (intros K; first [destruct K|reflexivity]; fail).
  set (f := (_ ;; _) : M (res unit unit)).
  assert (G : goes_with f f).
  { apply gw_bind; [apply gw_iaw|]. intros _ w' _. cbn [fst snd w_trace bare]. rewrite (bl_build o BL), bare_log by reflexivity. reflexivity. }
  specialize (G w1). destruct (f w1) as [w2 [[[]|e|]|e|]]; cbn [fst snd] in *; intros K; try (destruct K; fail); try (rewrite (G I)).
  - reflexivity.
  - pose proof (gw_warn InstrumentationNonbuildable (EWarn InstrumentationNonbuildable) eq_refl w2) as W.
    destruct (warn o _ _ w2) as [w3 [[]|e'|]]; cbn [fst snd] in *; try (destruct K; fail); rewrite W by exact K; rewrite <- bare_restore; reflexivity.
  - rewrite G by exact K. rewrite <- bare_restore. reflexivity.
Qed.
Lemma gw_removal {A} s (k k' : M A) : goes_with k k' -> goes_with (with_removal contents o s k) (with_removal contents o s k').
Proof.
  intros G w. unfold with_removal. rewrite backup_bare. destruct (backup_new o _ w) as [w1 [b|e|]]; cbn [fst snd]; try (intros K; first [destruct K|reflexivity]; fail).
  apply (gw_finally _ _ (restore b)); [apply bare_restore|]. destruct (remove_text _ s) as [[? t]|]; [|apply gw_panic]. apply gw_bind; [apply gw_write|]. intros _. exact G.
Qed.
Lemma gw_test ex s t : goes_with (run_test hash16 o ex s t) (run_test hash16 o ex s t).
Proof.
  intros w. unfold run_test. cbv zeta. change (w_fs (bare w)) with (w_fs w). rewrite <- bare_log by reflexivity. set (w1 := log _ w). cbn [w_trace bare]. rewrite (bl_exec o BL).
  destruct (o_exec o (w_trace w1) t s) as [[[]|]|e|]; cbn [fst snd]; [|destruct ex; [reflexivity|intros []]|reflexivity|intros []].
  change (w_fs (bare w1)) with (w_fs w1). rewrite <- bare_log by reflexivity. set (w2 := log _ w1). cbn [w_trace bare]. rewrite (bl_perform o BL).
  destruct (o_perform o (w_trace w2) t s) as [[]|e|]; cbn [fst snd]; try reflexivity; intros [].
Qed.
Lemma gw_tests ex s ts : forall acc, goes_with (fold_tests hash16 o ex s acc ts) (fold_tests hash16 o ex s acc ts).
Proof.
  induction ts as [|t rest IH]; intros acc; [apply gw_ret|]. cbn [fold_tests]. apply gw_bind; [destruct acc as [[]|]; first [apply gw_test|apply gw_ret]|]. exact IH.
Qed.
Lemma gw_candidate ex c t : goes_with (test_candidate hash16 o ex c t) (test_candidate hash16 o ex c t).
Proof.
  unfold test_candidate. apply gw_bind; [apply gw_tests|]. intros out. apply gw_bind; [apply gw_ctrlc|]. intros _. apply gw_bind; [|intros _; apply gw_progress].
  destruct out; [|apply gw_ret]. unfold emit. apply gw_bind; [apply gw_insert|]. intros _. apply gw_event. reflexivity.
Qed.
Lemma gw_one c : goes_with (one_candidate hash16 contents o c) (one_candidate hash16 contents o c).
Proof.
  unfold one_candidate. apply gw_bind.
  - intros w _. cbn [fst snd]. destruct (c_kind c); [reflexivity|]. rewrite bare_drop. reflexivity.
  - intros _. apply gw_bind; [apply gw_text|]. intros t w. cbn [w_ib bare].
    assert (G : goes_with (test_candidate hash16 o false c t) (test_candidate hash16 o false c t)) by apply gw_candidate.
    assert (G' : goes_with (with_removal contents o (c_span c) (test_candidate hash16 o true c t)) (with_removal contents o (c_span c) (test_candidate hash16 o true c t))) by (apply gw_removal, gw_candidate).
    destruct (w_ib w), (c_kind c); first [exact (G w)|exact (G' w)].
Qed.
Lemma gw_loop fuel : forall spans past, goes_with (candidates_loop hash16 contents o fuel spans past) (candidates_loop hash16 contents o fuel spans past).
Proof.
  induction fuel as [|fuel IH]; intros spans past; cbn [candidates_loop]; destruct (skip_past_removals spans past) as [[[mm n] spans'] past']; (apply gw_bind; [apply gw_progress|]); intros _;
    (destruct spans' as [|c rest]; [apply gw_ret|]); (apply gw_bind; [apply gw_one|]); intros _; [apply gw_ret|apply IH].
Qed.
Lemma gw_file p maps past : goes_with (one_file hash16 contents o p maps past) (one_file hash16 contents o p maps past).
Proof.
  unfold one_file. destruct (skip_past_removals _ past) as [[[mm n] spans] past']. apply gw_bind; [apply gw_progress|]. intros _. destruct spans as [|c rest]; [apply gw_ret|]. apply gw_bind.
  - intros w _. cbv zeta. change (w_fs (bare w)) with (w_fs w). rewrite <- bare_log by reflexivity. cbn [w_trace bare fst snd]. rewrite (bl_dry o BL). reflexivity.
  - intros r. destruct r as [u|e|]; [| |apply gw_panic].
    + apply gw_bind; [apply gw_ret|]. intros _. apply gw_bind; [apply gw_ctrlc|]. intros _. apply gw_finally; [apply bare_drop|]. apply gw_bind; [apply gw_instrument|]. intros _. apply gw_loop.
    + apply gw_bind; [apply gw_warn; reflexivity|]. intros _. apply gw_bind; [apply gw_ctrlc|]. intros _. apply gw_bind; [apply gw_skip|]. intros n'. apply gw_bind; [apply gw_progress|]. intros _. apply gw_ret.
Qed.
Lemma gw_run files : forall past, goes_with (run hash16 contents o files past) (run hash16 contents o files past).
Proof.
  induction files as [|[p maps] rest IH]; intros past; [apply gw_ret|]. cbn [run]. apply gw_bind; [apply gw_file|]. exact IH.
Qed.
End Sim.
