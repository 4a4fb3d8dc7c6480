(** Lemmas for C92: an interrupted run did what the other did until it was interrupted. *)
From Verif Require Import Base M_Text M_Rewriter M_Span M_Instr M_Run S_Run S_Deny L_Deny S_Struck.

Definition stays (w w' : world) : Prop := (exists l, w_trace w' = l ++ w_trace w /\ forall e, In e l -> ~ records e) /\ w_db w' = w_db w.
Lemma stays_refl w : stays w w. Proof. split; [exists []; split; [reflexivity|intros e []]|reflexivity]. Qed.
Lemma stays_trans a b c : stays a b -> stays b c -> stays a c.
Proof.
  intros [(r1 & H1 & N1) D1] [(r2 & H2 & N2) D2]. split; [exists (r2 ++ r1); split; [rewrite H2, H1, app_assoc; reflexivity|]|congruence].
  intros e I. apply in_app_iff in I as [I|I]; auto.
Qed.
Lemma stays_log e w w' : w_trace w' = e :: w_trace w -> w_db w' = w_db w -> ~ records e -> stays w w'.
Proof. intros T D N. split; [exists [e]; split; [exact T|intros e' [<-|[]]; exact N]|exact D]. Qed.
Lemma stays_same w w' : w_trace w' = w_trace w -> w_db w' = w_db w -> stays w w'.
Proof. intros T D. split; [exists []; split; [exact T|intros e []]|exact D]. Qed.
Lemma rest_stays a b : restored_from a b -> stays a b.
Proof. intros [(r & H) D]. split; [exists (map ERestore r); split; [exact H|]|exact D]. intros e I. apply in_map_iff in I as (p & <- & _). exact (fun F => F). Qed.

Section Run.
Context (hash16 : text -> text) (contents : path -> text) (x x' : oracle) (IN : interrupted x x').

Definition hit (w : world) : Prop := o_ctrlc x' (w_trace w) = true.
Lemma hit_stays w w' : hit w -> stays w w' -> hit w'.
Proof. intros H [(l & T & _) _]. apply (in_stays _ _ IN _ _ (ex_intro _ l T) H). Qed.

Definition doomed {A} (m : M A) : Prop := forall w, hit w -> stays w (fst (m w)).
Definition off {A} (m m' : M A) (w : world) : Prop := exists w0, hit w0 /\ later w0 (fst (m w)) /\ stays w0 (fst (m' w)).
Record foll {A} (m m' : M A) : Prop := { fo_grows : forall w, later w (fst (m w)); fo_foll : forall w, m' w = m w \/ off m m' w }.

Lemma dm_pure {A} (r : res run_error A) : doomed (fun w => (w, r)). Proof. intros w _. apply stays_refl. Qed.
Lemma dm_bind {A B} (m : M A) (f : A -> M B) : doomed m -> (forall a, doomed (f a)) -> doomed (mbind m f).
Proof.
  intros D K w H. specialize (D w H). unfold mbind. destruct (m w) as [w1 [a|e|]]; cbn [fst] in *; try exact D.
  exact (stays_trans _ _ _ D (K a w1 (hit_stays _ _ H D))).
Qed.
Lemma dm_finally {A} (m : M A) c : (forall w, restored_from w (c w)) -> doomed m -> doomed (finally m c).
Proof. intros C D w H. specialize (D w H). unfold finally. destruct (m w) as [w1 r]. cbn [fst] in *. exact (stays_trans _ _ _ D (rest_stays _ _ (C w1))). Qed.
Lemma dm_check {A} (k : M A) : doomed (check_ctrlc x' ;; k).
Proof.
  intros w H. unfold mbind, check_ctrlc. cbn zeta. unfold hit in H. rewrite H, Bool.orb_true_r. cbn [fst]. apply (stays_log ECtrlC); [reflexivity|reflexivity|exact (fun F => F)].
Qed.
Lemma dm_emit e : ~ records e -> doomed (emit_event e).
Proof. intros N w _. apply (stays_log e); [reflexivity|reflexivity|exact N]. Qed.
Lemma dm_warn v e : ~ records e -> doomed (warn x' v e).
Proof. intros N. unfold warn. apply dm_bind; [apply dm_emit, N|]. intros _. destruct (o_denied x' v); apply dm_pure. Qed.
Lemma dm_backup p : doomed (backup_new x' p).
Proof. intros w _. unfold backup_new. destruct (o_backup_ok x' _ _); cbn [fst]; [apply (stays_log (EBackup p)); [reflexivity|reflexivity|exact (fun F => F)]|apply stays_refl]. Qed.
Lemma dm_write p t : doomed (write_file x' p t).
Proof. intros w _. unfold write_file. destruct (o_write x' _ _); cbn [fst]; (apply (stays_log (EWrite p)); [reflexivity|reflexivity|exact (fun F => F)]). Qed.
Lemma dm_progress mm n : doomed (update_progress x' mm n).
Proof.
  unfold update_progress. apply dm_bind; [destruct mm; [apply dm_warn; exact (fun F => F)|apply dm_pure]|]. intros _ w _. apply stays_same; reflexivity.
Qed.
Lemma dm_text s : doomed (source_text_m contents s).
Proof. unfold source_text_m. destruct (source_text _ s); apply dm_pure. Qed.
Lemma dm_lift {A} (r : res unit A) : doomed (lift r).
Proof. intros w _. destruct r; apply stays_refl. Qed.
Lemma dm_instrument p spans : doomed (instrument_and_write contents x' p spans).
Proof.
  unfold instrument_and_write. cbn zeta. apply dm_bind.
  - intros w _. unfold lift. destruct (o_extra x' _ _ _); apply stays_refl.
  - intros e. apply dm_bind; [apply dm_lift|]. intros _. destruct (instrument _ _ _ _ _ _); [apply dm_write|apply dm_pure].
Qed.
Lemma dm_backed {A} p (k : path * text -> M A) : (forall b, doomed (k b)) ->
  doomed (fun w => match backup_new x' p w with (w1, Ok b) => k b w1 | (w1, Err e) => (w1, Err e) | (w1, Panic) => (w1, Panic) end).
Proof. intros K. exact (dm_bind _ _ (dm_backup p) K). Qed.

Definition built (y : oracle) p spans : M (res unit unit) :=
  (instrument_and_write contents y p spans ;; (fun w => (log (EBuild p (w_fs w)) w, Ok (o_build y (w_trace w) p)))).
Definition fin (y : oracle) (b : path * text) (q : world * res run_error (res unit unit)) : world * res run_error bool :=
  match q with
  | (w2, Ok (Ok tt)) => (set_ib (Some b) w2, Ok true)
  | (w2, Ok (Err _)) =>
    match warn y InstrumentationNonbuildable (EWarn InstrumentationNonbuildable) w2 with
    | (w3, Ok _) => (restore b w3, Ok false) | (w3, Err e) => (restore b w3, Err e) | (w3, Panic) => (restore b w3, Panic) end
  | (w2, Ok Panic) => (restore b w2, Panic)
  | (w2, Err e) => (restore b w2, Err e)
  | (w2, Panic) => (restore b w2, Panic)
  end.
Lemma statements_as y p spans : instrument_statements contents y p spans =
  (fun w => match backup_new y p w with (w1, Ok b) => fin y b (built y p spans w1) | (w1, Err e) => (w1, Err e) | (w1, Panic) => (w1, Panic) end).
Proof. reflexivity. Qed.
Lemma dm_built p spans : doomed (built x' p spans).
Proof. unfold built. apply dm_bind; [apply dm_instrument|]. intros _ w _. apply (stays_log (EBuild p (w_fs w))); [reflexivity|reflexivity|exact (fun F => F)]. Qed.
Lemma fin_stays b w2 r : hit w2 -> stays w2 (fst (fin x' b (w2, r))).
Proof.
  intros H. unfold fin. destruct r as [[[]|e|]|e|]; try (apply rest_stays, restore_rest); [apply stays_same; reflexivity|].
  pose proof (dm_warn InstrumentationNonbuildable (EWarn InstrumentationNonbuildable) (fun F => F) w2 H) as D.
  destruct (warn x' _ _ w2) as [w3 [?|?|]]; cbn [fst] in *; apply (stays_trans _ _ _ D), rest_stays, restore_rest.
Qed.
Lemma dm_statements p spans : doomed (instrument_statements contents x' p spans).
Proof.
  rewrite statements_as. apply (dm_backed p (fun b w => fin x' b (built x' p spans w))). intros b w H. pose proof (dm_built p spans w H) as D.
  destruct (built x' p spans w) as [w2 r]. cbn [fst] in D. exact (stays_trans _ _ _ D (fin_stays b w2 r (hit_stays _ _ H D))).
Qed.
Lemma dm_removal {A} s (k : M A) : doomed k -> doomed (with_removal contents x' s k).
Proof.
  intros K. unfold with_removal. apply dm_backed. intros b. apply dm_finally; [intros w; apply restore_rest|].
  destruct (remove_text _ _) as [[t0 t]|]; [|apply dm_pure]. apply dm_bind; [apply dm_write|]. intros _. exact K.
Qed.
Lemma dm_test explicit s t : doomed (run_test hash16 x' explicit s t).
Proof.
  intros w _. assert (S1 : stays w (log (EExec s t (w_fs w)) w)) by (apply (stays_log (EExec s t (w_fs w))); [reflexivity|reflexivity|exact (fun F => F)]).
  unfold run_test. cbn zeta. set (w1 := log (EExec s t (w_fs w)) w) in *. destruct (o_exec x' _ t s) as [[u|]|e|]; [|destruct explicit; exact S1|exact S1..].
  assert (S2 : stays w (log (ERun s t (span_id hash16 s) (w_fs w1)) w1)).
  { apply (stays_trans _ _ _ S1). apply (stays_log (ERun s t (span_id hash16 s) (w_fs w1))); [reflexivity|reflexivity|exact (fun F => F)]. }
  destruct (o_perform x' _ t s) as [[]|e|]; exact S2.
Qed.
Lemma dm_fold explicit s tests : forall acc, doomed (fold_tests hash16 x' explicit s acc tests).
Proof.
  induction tests as [|t tests IH]; intros acc; [apply dm_pure|]. cbn [fold_tests]. apply dm_bind; [|exact IH]. destruct acc as [[]|]; try apply dm_pure. apply dm_test.
Qed.
Lemma dm_candidate explicit c t : doomed (test_candidate hash16 x' explicit c t).
Proof. unfold test_candidate. apply dm_bind; [apply dm_fold|]. intros out. apply dm_check. Qed.
Lemma dm_one c : doomed (one_candidate hash16 contents x' c).
Proof.
  unfold one_candidate. apply dm_bind.
  - intros w _. cbn [fst]. destruct (c_kind c); [apply stays_refl|apply rest_stays, drop_rest].
  - intros _. apply dm_bind; [apply dm_text|]. intros t w H. cbn beta zeta. destruct (match w_ib w with None => true | Some _ => _ end).
    + exact (dm_removal (c_span c) _ (dm_candidate true c t) w H).
    + exact (dm_candidate false c t w H).
Qed.
Lemma dm_loop fuel : forall spans past, doomed (candidates_loop hash16 contents x' fuel spans past).
Proof.
  induction fuel as [|f IH]; intros spans past; cbn [candidates_loop]; destruct (skip_past_removals spans past) as [[[mm n] spans'] past']; (apply dm_bind; [apply dm_progress|]); intros _;
  (destruct spans' as [|c rest]; [apply dm_pure|]); (apply dm_bind; [apply dm_one|]); intros _; [apply dm_pure|apply IH].
Qed.
Lemma dm_tail p spans past : doomed (finally (instrument_statements contents x' p spans ;; candidates_loop hash16 contents x' (length spans) spans past) drop_ib).
Proof. apply dm_finally; [intros w; apply drop_rest|]. apply dm_bind; [apply dm_statements|]. intros _. apply dm_loop. Qed.
Definition rest_of_file (y : oracle) p spans past' (r : res unit unit) : M (list removal) :=
    match r with
    | Panic => panic
    | _ =>
      (match r with Err _ => warn y DryRunFailed (EWarn DryRunFailed) | _ => ret tt end) ;;
      check_ctrlc y ;;
      match r with
      | Err _ => n <- skip_present contents y spans ;; update_progress y None n ;; ret past'
      | _ => finally (instrument_statements contents y p spans ;; candidates_loop hash16 contents y (length spans) spans past') drop_ib
      end
    end.
Definition dry_run (y : oracle) p : M (res unit unit) := fun w => let w := log (EDryRun p (w_fs w)) w in (w, Ok (o_dry_run y (w_trace w) p)).
Lemma file_as y p maps past : one_file hash16 contents y p maps past =
  (let '(mm, n, spans, past') := skip_past_removals (stm_iter maps) past in
   update_progress y mm n ;; match spans with [] => ret past' | _ => r <- dry_run y p ;; rest_of_file y p spans past' r end).
Proof. reflexivity. Qed.
Lemma dm_rest p spans past' r : doomed (rest_of_file x' p spans past' r).
Proof.
  unfold rest_of_file. destruct r as [u|e|]; [| |apply dm_pure]; (apply dm_bind; [first [apply dm_pure|apply dm_warn; exact (fun F => F)]|]); intros _; apply dm_check.
Qed.
Lemma dm_file p maps past : doomed (one_file hash16 contents x' p maps past).
Proof.
  rewrite file_as. destruct (skip_past_removals (stm_iter maps) past) as [[[mm n] spans] past']. apply dm_bind; [apply dm_progress|]. intros _.
  destruct spans as [|c rest]; [apply dm_pure|]. apply dm_bind; [|intros r; apply dm_rest].
  intros w _. apply (stays_log (EDryRun p (w_fs w))); [reflexivity|reflexivity|exact (fun F => F)].
Qed.
Lemma dm_run files : forall past, doomed (run hash16 contents x' files past).
Proof.
  induction files as [|[p m] files IH]; intros past; [apply dm_pure|]. cbn [run]. apply dm_bind; [apply dm_file|exact IH].
Qed.

(** Following. *)
Lemma fo_same {A} (m m' : M A) : (forall w, m' w = m w) -> (forall w, later w (fst (m w))) -> foll m m'.
Proof. intros E G. split; [exact G|]. intros w. left. apply E. Qed.
Lemma fo_pure {A} (r : res run_error A) : foll (fun w => (w, r)) (fun w => (w, r)).
Proof. apply fo_same; [reflexivity|]. intros w. apply later_refl. Qed.
Lemma grows_bind {A B} (m : M A) (f : A -> M B) w : (forall a w, later w (fst (f a w))) -> later (fst (m w)) (fst (mbind m f w)).
Proof. intros K. unfold mbind. destruct (m w) as [w1 [a|e|]]; cbn [fst]; [apply K|apply later_refl..]. Qed.
Lemma fo_bind {A B} (m m' : M A) (f f' : A -> M B) : foll m m' -> (forall a, foll (f a) (f' a)) -> (forall a, doomed (f' a)) -> foll (mbind m f) (mbind m' f').
Proof.
  intros [G F] K D. assert (G' : forall w, later (fst (m w)) (fst (mbind m f w))) by (intros w; apply grows_bind; intros a; apply K).
  split; [intros w; exact (later_trans _ _ _ (G w) (G' w))|]. intros w. destruct (F w) as [E|(w0 & H & L & S)].
  - unfold mbind, off. rewrite E. destruct (m w) as [w1 [a|e|]]; [|left; reflexivity..]. exact (fo_foll _ _ (K a) w1).
  - right. exists w0. split; [exact H|]. split; [exact (later_trans _ _ _ L (G' w))|]. unfold mbind. destruct (m' w) as [w1 [a|e|]]; cbn [fst] in *; try exact S.
    exact (stays_trans _ _ _ S (D a w1 (hit_stays _ _ H S))).
Qed.
Lemma fo_bind_same {A B} (m m' : M A) (f f' : A -> M B) : (forall w, m' w = m w) -> (forall w, later w (fst (m w))) -> (forall a, foll (f a) (f' a)) -> foll (mbind m f) (mbind m' f').
Proof.
  intros E G K. assert (G' : forall w, later (fst (m w)) (fst (mbind m f w))) by (intros w; apply grows_bind; intros a; apply K).
  split; [intros w; exact (later_trans _ _ _ (G w) (G' w))|]. intros w. unfold mbind, off. rewrite E. destruct (m w) as [w1 [a|e|]]; [|left; reflexivity..]. exact (fo_foll _ _ (K a) w1).
Qed.
Lemma fo_finally {A} (m m' : M A) c : (forall w, restored_from w (c w)) -> foll m m' -> foll (finally m c) (finally m' c).
Proof.
  intros C [G F]. assert (G' : forall w, later (fst (m w)) (fst (finally m c w))) by (intros w; unfold finally; destruct (m w) as [w1 r]; cbn [fst]; apply rest_later, C).
  split; [intros w; exact (later_trans _ _ _ (G w) (G' w))|]. intros w. destruct (F w) as [E|(w0 & H & L & S)].
  - left. unfold finally. rewrite E. reflexivity.
  - right. exists w0. split; [exact H|]. split; [exact (later_trans _ _ _ L (G' w))|]. unfold finally. destruct (m' w) as [w1 r]. cbn [fst] in *. exact (stays_trans _ _ _ S (rest_stays _ _ (C w1))).
Qed.
Lemma fo_check {A} (k k' : M A) : foll k k' -> foll (check_ctrlc x ;; k) (check_ctrlc x' ;; k').
Proof.
  intros [G F].
  assert (GG : forall w, later w (fst ((check_ctrlc x ;; k) w))).
  { intros w. unfold mbind, check_ctrlc. cbn zeta. destruct (w_ctrlc w || _); cbn [fst]; [eapply later_step; reflexivity|].
    eapply later_trans; [|apply G]. eapply later_step; reflexivity. }
  split; [exact GG|]. intros w. destruct (o_ctrlc x' (w_trace w)) eqn:H.
  - right. exists w. split; [exact H|]. split; [apply GG|]. apply (dm_check k' w H).
  - unfold mbind, off, check_ctrlc. cbn zeta. rewrite H, (in_ctrlc _ _ IN _ H). destruct (w_ctrlc w || false); [left; reflexivity|]. exact (F _).
Qed.
Notation SR := (stricter_refl x).
Lemma eq_warn v e w : warn x' v e w = warn x v e w. Proof. unfold warn. rewrite (in_denied _ _ IN). reflexivity. Qed.
Lemma eq_backup p w : backup_new x' p w = backup_new x p w. Proof. unfold backup_new. rewrite (in_backup _ _ IN). reflexivity. Qed.
Lemma eq_write p t w : write_file x' p t w = write_file x p t w. Proof. unfold write_file. rewrite (in_write _ _ IN). reflexivity. Qed.
Lemma eq_insert r w : db_insert x' r w = db_insert x r w. Proof. unfold db_insert. rewrite (in_db _ _ IN). reflexivity. Qed.
Lemma eq_bind {A B} (m m' : M A) (f f' : A -> M B) w : (forall w, m' w = m w) -> (forall a w, f' a w = f a w) -> mbind m' f' w = mbind m f w.
Proof. intros E K. unfold mbind. rewrite E. destruct (m w) as [w1 [a|e|]]; [apply K|reflexivity..]. Qed.
Lemma eq_progress mm n w : update_progress x' mm n w = update_progress x mm n w.
Proof. unfold update_progress. apply eq_bind; [|reflexivity]. intros w1. destruct mm; [apply eq_warn|reflexivity]. Qed.
Lemma eq_present spans : forall w, skip_present contents x' spans w = skip_present contents x spans w.
Proof.
  induction spans as [|c rest IH]; intros w; [reflexivity|]. cbn [skip_present]. apply eq_bind.
  - intros w1. destruct (w_db w1); [|reflexivity]. apply eq_bind; [reflexivity|]. intros t. apply eq_insert.
  - intros _ w1. apply eq_bind; [exact IH|reflexivity].
Qed.
Lemma eq_guards ss : guards_ok x' ss = guards_ok x ss.
Proof. induction ss as [|s ss IH]; [reflexivity|]. cbn [guards_ok]. rewrite (in_guard _ _ IN), IH. reflexivity. Qed.
Lemma eq_instrument p spans w : instrument_and_write contents x' p spans w = instrument_and_write contents x p spans w.
Proof.
  unfold instrument_and_write. cbn zeta. apply eq_bind; [intros w1; rewrite (in_extra _ _ IN); reflexivity|]. intros e w1. rewrite eq_guards. apply eq_bind; [reflexivity|]. intros _ w2.
  assert (H : guard_of x' = guard_of x) by (unfold guard_of; rewrite (in_guard _ _ IN); reflexivity). rewrite H.
  destruct (instrument _ _ _ _ _ _); [apply eq_write|reflexivity].
Qed.
Lemma fo_built p spans : foll (built x p spans) (built x' p spans).
Proof.
  unfold built. apply fo_bind_same; [apply eq_instrument|apply (ok_grows _ _ (ok_instrument contents x x SR p spans))|]. intros _.
  split; [intros w; apply later_log|]. intros w. destruct (o_ctrlc x' (w_trace w)) eqn:H.
  - right. exists w. split; [exact H|]. split; [apply later_log|]. apply (stays_log (EBuild p (w_fs w))); [reflexivity|reflexivity|exact (fun F => F)].
  - left. rewrite (in_build _ _ IN _ _ H). reflexivity.
Qed.
Lemma fin_later b w2 r : later w2 (fst (fin x b (w2, r))).
Proof.
  unfold fin. destruct r as [[[]|e|]|e|]; try (apply rest_later, restore_rest); [apply later_same; reflexivity|].
  pose proof (ok_grows _ _ (ok_warn x x SR InstrumentationNonbuildable (EWarn InstrumentationNonbuildable)) w2) as G.
  destruct (warn x _ _ w2) as [w3 [?|?|]]; cbn [fst] in *; apply (later_trans _ _ _ G), rest_later, restore_rest.
Qed.
Lemma fin_same b q : fin x' b q = fin x b q.
Proof. unfold fin. destruct q as [w2 [[[]|e|]|e|]]; try reflexivity. rewrite eq_warn. reflexivity. Qed.
Lemma fo_backed {A} p (k k' : path * text -> M A) : (forall b, foll (k b) (k' b)) ->
  foll (fun w => match backup_new x p w with (w1, Ok b) => k b w1 | (w1, Err e) => (w1, Err e) | (w1, Panic) => (w1, Panic) end)
       (fun w => match backup_new x' p w with (w1, Ok b) => k' b w1 | (w1, Err e) => (w1, Err e) | (w1, Panic) => (w1, Panic) end).
Proof. intros K. exact (fo_bind_same _ _ _ _ (eq_backup p) (ok_grows _ _ (ok_backup x x SR p)) K). Qed.
Lemma fo_statements p spans : foll (instrument_statements contents x p spans) (instrument_statements contents x' p spans).
Proof.
  rewrite !statements_as. apply (fo_backed p (fun b w => fin x b (built x p spans w)) (fun b w => fin x' b (built x' p spans w))). intros b.
  assert (T : forall w, later (fst (built x p spans w)) (fst (fin x b (built x p spans w)))) by (intros w; destruct (built x p spans w) as [w2 r]; apply fin_later).
  split; [intros w; exact (later_trans _ _ _ (fo_grows _ _ (fo_built p spans) w) (T w))|]. intros w. destruct (fo_foll _ _ (fo_built p spans) w) as [E|(w0 & H & L & S)].
  - left. rewrite E. apply fin_same.
  - right. exists w0. split; [exact H|]. split; [exact (later_trans _ _ _ L (T w))|]. destruct (built x' p spans w) as [w2 r]. cbn [fst] in S.
    exact (stays_trans _ _ _ S (fin_stays b w2 r (hit_stays _ _ H S))).
Qed.
Lemma fo_removal {A} s (k k' : M A) : foll k k' -> foll (with_removal contents x s k) (with_removal contents x' s k').
Proof.
  intros K. unfold with_removal. apply fo_backed. intros b. apply fo_finally; [intros w; apply restore_rest|].
  destruct (remove_text _ _) as [[t0 t]|]; [|apply fo_pure]. apply fo_bind_same; [apply eq_write|apply (ok_grows _ _ (ok_write x x SR _ t))|]. intros _. exact K.
Qed.
Lemma fo_test explicit s t : foll (run_test hash16 x explicit s t) (run_test hash16 x' explicit s t).
Proof.
  assert (G := ok_grows _ _ (ok_test hash16 x x SR explicit s t)). split; [exact G|]. intros w. unfold off. pose proof (dm_test explicit s t w) as D. clear G. revert D. unfold run_test. cbn zeta.
  set (w1 := log (EExec s t (w_fs w)) w).
  assert (GG : forall w1', w1' = w1 -> later w1 (fst (match o_exec x (w_trace w1) t s with Err _ => (w1', Err BackendFailed) | Panic => (w1', Panic)
    | Ok (Some _) => let w2 := log (ERun s t (span_id hash16 s) (w_fs w1)) w1 in match o_perform x (w_trace w2) t s with Err _ => (w2, Err BackendFailed) | Panic => (w2, Panic)
       | Ok XNone => (w2, Ok None) | Ok XPassed => (w2, Ok (Some Passed)) | Ok XFailed => (w2, Ok (Some Failed)) | Ok XTimedOut => (w2, Ok (Some TimedOut)) end
    | Ok None => if explicit then (w1', Ok (Some Nonbuildable)) else (w1', Panic) end))).
  { intros w1' ->. destruct (o_exec x _ t s) as [[u|]|e|]; [|destruct explicit; apply later_refl|apply later_refl..]. cbn zeta. destruct (o_perform x _ t s) as [[]|e|]; apply later_log. }
  specialize (GG w1 eq_refl). intros _. destruct (o_ctrlc x' (w_trace w1)) eqn:H1.
  - right. exists w1. split; [exact H1|]. split; [exact GG|].
    destruct (o_exec x' _ t s) as [[u|]|e|]; [|destruct explicit; apply stays_refl|apply stays_refl..].
    assert (S2 : stays w1 (log (ERun s t (span_id hash16 s) (w_fs w1)) w1)) by (apply (stays_log (ERun s t (span_id hash16 s) (w_fs w1))); [reflexivity|reflexivity|exact (fun F => F)]).
    destruct (o_perform x' _ t s) as [[]|e|]; exact S2.
  - rewrite (in_exec _ _ IN _ t s H1). clear GG. destruct (o_exec x (w_trace w1) t s) as [[u|]|e|]; try (left; reflexivity).
    set (w2 := log (ERun s t (span_id hash16 s) (w_fs w1)) w1). destruct (o_ctrlc x' (w_trace w2)) eqn:H2.
    + right. exists w2. split; [exact H2|]. split; [destruct (o_perform x _ t s) as [[]|e|]; apply later_refl|destruct (o_perform x' _ t s) as [[]|e|]; apply stays_refl].
    + left. rewrite (in_perform _ _ IN _ t s H2). reflexivity.
Qed.
Lemma fo_fold explicit s tests : forall acc, foll (fold_tests hash16 x explicit s acc tests) (fold_tests hash16 x' explicit s acc tests).
Proof.
  induction tests as [|t tests IH]; intros acc; [apply fo_pure|]. cbn [fold_tests]. apply fo_bind; [|exact IH|intros a; apply dm_fold]. destruct acc as [[]|]; try apply fo_pure. apply fo_test.
Qed.
Lemma fo_progress mm n : foll (update_progress x mm n) (update_progress x' mm n).
Proof. apply fo_same; [apply eq_progress|apply (ok_grows _ _ (ok_progress x x SR mm n))]. Qed.
Lemma fo_candidate explicit c t : foll (test_candidate hash16 x explicit c t) (test_candidate hash16 x' explicit c t).
Proof.
  unfold test_candidate. apply fo_bind; [apply fo_fold| |intros out; apply dm_check]. intros out. apply fo_check. apply fo_bind_same; [| |intros _; apply fo_progress].
  - intros w. destruct out; [|reflexivity]. unfold emit. apply eq_bind; [apply eq_insert|reflexivity].
  - intros w. destruct out; [|apply later_refl]. unfold emit. apply (ok_grows _ _ (ok_bind _ _ _ _ (ok_insert x x SR _) (fun _ => ok_emit _))).
Qed.
Lemma fo_one c : foll (one_candidate hash16 contents x c) (one_candidate hash16 contents x' c).
Proof.
  unfold one_candidate. apply fo_bind_same; [reflexivity| |].
  - intros w. cbn [fst]. destruct (c_kind c); [apply later_refl|apply rest_later, drop_rest].
  - intros _. apply fo_bind_same; [reflexivity|apply (ok_grows _ _ (ok_text contents (c_span c)))|]. intros t.
    pose proof (fo_removal (c_span c) _ _ (fo_candidate true c t)) as [G1 F1]. pose proof (fo_candidate false c t) as [G2 F2].
    split; intros w; cbn beta zeta; unfold off in *; destruct (match w_ib w with None => true | Some _ => _ end); auto.
Qed.
Lemma fo_loop fuel : forall spans past, foll (candidates_loop hash16 contents x fuel spans past) (candidates_loop hash16 contents x' fuel spans past).
Proof.
  induction fuel as [|f IH]; intros spans past; cbn [candidates_loop]; destruct (skip_past_removals spans past) as [[[mm n] spans'] past'];
  (apply fo_bind_same; [apply eq_progress|apply (ok_grows _ _ (ok_progress x x SR mm n))|]); intros _;
  (destruct spans' as [|c rest]; [apply fo_pure|]); (apply fo_bind; [apply fo_one| |]); intros _; [apply fo_pure|apply dm_pure|apply IH|apply dm_loop].
Qed.
Lemma fo_rest p spans past' r : foll (rest_of_file x p spans past' r) (rest_of_file x' p spans past' r).
Proof.
  unfold rest_of_file. destruct r as [u|e|]; [| |apply fo_pure].
  - apply fo_bind_same; [reflexivity|intros w; apply later_refl|]. intros _. apply fo_check. apply fo_finally; [intros w; apply drop_rest|].
    apply fo_bind; [apply fo_statements|intros _; apply fo_loop|intros _; apply dm_loop].
  - apply fo_bind_same; [apply eq_warn|apply (ok_grows _ _ (ok_warn x x SR _ _))|]. intros _. apply fo_check.
    apply fo_bind_same; [apply eq_present|apply (ok_grows _ _ (ok_present contents x x SR spans))|]. intros n.
    apply fo_bind_same; [apply eq_progress|apply (ok_grows _ _ (ok_progress x x SR None n))|]. intros _. apply fo_pure.
Qed.
Lemma fo_file p maps past : foll (one_file hash16 contents x p maps past) (one_file hash16 contents x' p maps past).
Proof.
  rewrite !file_as. destruct (skip_past_removals (stm_iter maps) past) as [[[mm n] spans] past'].
  apply fo_bind_same; [apply eq_progress|apply (ok_grows _ _ (ok_progress x x SR mm n))|]. intros _.
  destruct spans as [|c rest]; [apply fo_pure|]. apply fo_bind; [|intros r; apply fo_rest|intros r; apply dm_rest].
  split; [intros w; apply later_log|]. intros w. unfold off, dry_run. cbn zeta. set (w1 := log (EDryRun p (w_fs w)) w). destruct (o_ctrlc x' (w_trace w1)) eqn:H.
  - right. exists w1. split; [exact H|]. split; [apply later_refl|apply stays_refl].
  - left. rewrite (in_dry_run _ _ IN _ _ H). reflexivity.
Qed.
Lemma fo_run files : forall past, foll (run hash16 contents x files past) (run hash16 contents x' files past).
Proof.
  induction files as [|[p m] files IH]; intros past; [apply fo_pure|]. cbn [run]. apply fo_bind; [apply fo_file|exact IH|intros a; apply dm_run].
Qed.
End Run.

Lemma interrupted_run hash16 contents x x' files fs db : interrupted x x' ->
  let a := run_from hash16 contents x files fs db in let a' := run_from hash16 contents x' files fs db in
  a' = a \/ struck x' (w_trace (fst a)) (w_trace (fst a')) /\ rows_before (w_db (fst a')) (w_db (fst a)).
Proof.
  intros IN a a'. destruct (fo_foll _ _ _ (fo_run hash16 contents x x' IN files (past_of db)) (start fs db)) as [E|(w0 & H & [L R] & ((l & T & N) & D))]; [left; exact E|right].
  split; [exists (w_trace w0), l; split; [exact L|]; split; [exact T|]; split; [exact H|exact N]|]. unfold a', run_from. rewrite D. exact R.
Qed.
