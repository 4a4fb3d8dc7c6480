(** Lemmas for C89: a run in stricter surroundings is the same run, or stops with an error in the middle of it. *)
From Verif Require Import Base M_Text M_Rewriter M_Span M_Instr M_Run S_Run S_Deny.

Definition later (w w' : world) : Prop := moment (w_trace w) (w_trace w') /\ rows_before (w_db w) (w_db w').
Lemma rb_refl d : rows_before d d. Proof. destruct d; cbn; [exists []; symmetry; apply app_nil_r|exact I]. Qed.
Lemma rb_trans a b c : rows_before a b -> rows_before b c -> rows_before a c.
Proof. destruct a, b, c; cbn; try tauto. intros (k1 & ->) (k2 & ->). exists (k1 ++ k2). apply app_assoc_reverse. Qed.
Lemma later_refl w : later w w. Proof. split; [exists []; reflexivity|apply rb_refl]. Qed.
Lemma later_trans a b c : later a b -> later b c -> later a c.
Proof. intros [(l1 & H1) R1] [(l2 & H2) R2]. split; [exists (l2 ++ l1); rewrite H2, H1; apply app_assoc|exact (rb_trans _ _ _ R1 R2)]. Qed.
Lemma later_log e w : later w (log e w). Proof. split; [exists [e]; reflexivity|apply rb_refl]. Qed.
Lemma later_same w w' : w_trace w' = w_trace w -> w_db w' = w_db w -> later w w'.
Proof. intros T D. split; [rewrite T; exists []; reflexivity|rewrite D; apply rb_refl]. Qed.
Lemma later_step w w' e : w_trace w' = e :: w_trace w -> w_db w' = w_db w -> later w w'.
Proof. intros T D. split; [rewrite T; exists [e]; reflexivity|rewrite D; apply rb_refl]. Qed.

(** Only restores, in addition. *)
Definition restored_from (w w' : world) : Prop := (exists rs, w_trace w' = map ERestore rs ++ w_trace w) /\ w_db w' = w_db w.
Lemma rest_refl w : restored_from w w. Proof. split; [exists []; reflexivity|reflexivity]. Qed.
Lemma rest_trans a b c : restored_from a b -> restored_from b c -> restored_from a c.
Proof. intros [(r1 & H1) D1] [(r2 & H2) D2]. split; [exists (r2 ++ r1); rewrite H2, H1, map_app, app_assoc; reflexivity|congruence]. Qed.
Lemma rest_later a b : restored_from a b -> later a b.
Proof. intros [(r & H) D]. split; [rewrite H; eexists; reflexivity|rewrite D; apply rb_refl]. Qed.

Definition denial (e : run_error) : Prop := e = WarnDenied \/ e = BackendFailed.
Definition cut {A} (m m' : M A) (w : world) : Prop :=
  (exists e, denial e /\ snd (m' w) = Err e) /\ exists w0, restored_from w0 (fst (m' w)) /\ later w w0 /\ later w0 (fst (m w)).
Record ok {A} (m m' : M A) : Prop := { ok_grows : forall w, later w (fst (m w)); ok_foll : forall w, m' w = m w \/ cut m m' w }.

Lemma ok_same {A} (m m' : M A) : (forall w, m' w = m w) -> (forall w, later w (fst (m w))) -> ok m m'.
Proof. intros E G. split; [exact G|]. intros w. left. apply E. Qed.
Lemma ok_pure {A} (r : res run_error A) : ok (fun w => (w, r)) (fun w => (w, r)).
Proof. apply ok_same; [reflexivity|]. intros w. apply later_refl. Qed.
Lemma ok_bind {A B} (m m' : M A) (f f' : A -> M B) : ok m m' -> (forall a, ok (f a) (f' a)) -> ok (mbind m f) (mbind m' f').
Proof.
  intros [G F] K. assert (G' : forall w, later (fst (m w)) (fst (mbind m f w))).
  { intros w. unfold mbind. destruct (m w) as [w1 [a|e|]]; cbn [fst]; [apply K|apply later_refl..]. }
  split; [intros w; exact (later_trans _ _ _ (G w) (G' w))|]. intros w. destruct (F w) as [E|((e & D & E) & w0 & R & L0 & L)].
  - unfold mbind, cut. rewrite E. pose proof (G w) as Gw. destruct (m w) as [w1 [a|e|]]; [|left; reflexivity..]. cbn [fst] in Gw.
    destruct (ok_foll _ _ (K a) w1) as [E1|(X & w0 & R & L0 & L)]; [left; exact E1|right]. split; [exact X|].
    exists w0. split; [exact R|]. split; [exact (later_trans _ _ _ Gw L0)|exact L].
  - right. specialize (G' w). unfold mbind in *. unfold cut. destruct (m' w) as [w1 [a|e1|]]; try discriminate. cbn [fst snd] in *.
    split; [exists e; split; [exact D|congruence]|]. exists w0. split; [exact R|]. split; [exact L0|exact (later_trans _ _ _ L G')].
Qed.
Lemma ok_finally {A} (m m' : M A) c : (forall w, restored_from w (c w)) -> ok m m' -> ok (finally m c) (finally m' c).
Proof.
  intros C [G F]. assert (G' : forall w, later (fst (m w)) (fst (finally m c w))) by (intros w; unfold finally; destruct (m w) as [w1 r]; cbn [fst]; apply rest_later, C).
  split; [intros w; exact (later_trans _ _ _ (G w) (G' w))|]. intros w. destruct (F w) as [E|((e & D & E) & w0 & R & L0 & L)].
  - left. unfold finally. rewrite E. reflexivity.
  - right. specialize (G' w). unfold finally in *. unfold cut. destruct (m' w) as [w1 r]. cbn [fst snd] in *. split; [exists e; auto|].
    exists w0. split; [exact (rest_trans _ _ _ R (C w1))|]. split; [exact L0|exact (later_trans _ _ _ L G')].
Qed.
Lemma restore_rest b w : restored_from w (restore b w). Proof. split; [exists [fst b]; reflexivity|reflexivity]. Qed.
Lemma drop_rest w : restored_from w (drop_ib w).
Proof. unfold drop_ib. destruct (w_ib w) as [b|]; [|apply rest_refl]. split; [exists [fst b]; reflexivity|reflexivity]. Qed.
Lemma ok_match {A} (b : bool) (m1 m1' m2 m2' : M A) : ok m1 m1' -> ok m2 m2' -> ok (if b then m1 else m2) (if b then m1' else m2').
Proof. destruct b; auto. Qed.
Lemma ok_at {A} (f f' : world -> M A) : (forall w, ok (f w) (f' w)) -> ok (fun w => f w w) (fun w => f' w w).
Proof. intros K. split; [intros w; apply (ok_grows _ _ (K w))|]. intros w. apply (ok_foll _ _ (K w)). Qed.

Section Run.
Context (hash16 : text -> text) (contents : path -> text) (x x' : oracle) (ST : stricter x x').

Lemma ok_emit e : ok (emit_event e) (emit_event e).
Proof. apply ok_same; [reflexivity|]. intros w. apply later_log. Qed.
Lemma ok_warn v e : ok (warn x v e) (warn x' v e).
Proof.
  unfold warn. apply ok_bind; [apply ok_emit|]. intros []. pose proof (st_denied _ _ ST v) as D. destruct (o_denied x v); [rewrite D by reflexivity; apply ok_pure|].
  destruct (o_denied x' v); [|apply ok_pure]. split; [intros w; apply later_refl|]. intros w. right. split; [exists WarnDenied; split; [left; reflexivity|reflexivity]|].
  exists w. split; [apply rest_refl|]. split; apply later_refl.
Qed.
Lemma ok_ctrlc : ok (check_ctrlc x) (check_ctrlc x').
Proof.
  apply ok_same; unfold check_ctrlc; intros w; [rewrite (st_ctrlc _ _ ST); reflexivity|]. destruct (w_ctrlc w || _); cbn [fst]; (eapply later_step; [reflexivity|reflexivity]).
Qed.
Lemma ok_backup p : ok (backup_new x p) (backup_new x' p).
Proof.
  apply ok_same; unfold backup_new; intros w; [rewrite (st_backup _ _ ST); reflexivity|]. destruct (o_backup_ok x _ _); cbn [fst]; [apply later_log|apply later_refl].
Qed.
Lemma ok_write p t : ok (write_file x p t) (write_file x' p t).
Proof.
  apply ok_same; unfold write_file; intros w; [rewrite (st_write _ _ ST); reflexivity|]. destruct (o_write x _ _); cbn [fst]; (eapply later_step; [reflexivity|reflexivity]).
Qed.
Lemma ok_add n : ok (fun w => (add_progress n w, Ok tt)) (fun w => (add_progress n w, Ok tt)).
Proof. apply ok_same; [reflexivity|]. intros w. apply later_same; reflexivity. Qed.
Lemma ok_progress mm n : ok (update_progress x mm n) (update_progress x' mm n).
Proof. unfold update_progress. apply ok_bind; [destruct mm; [apply ok_warn|apply ok_pure]|]. intros _. apply ok_add. Qed.
Lemma ok_insert r : ok (db_insert x r) (db_insert x' r).
Proof.
  apply ok_same; unfold db_insert; intros w; [rewrite (st_db _ _ ST); reflexivity|]. destruct (w_db w) as [rows|] eqn:D; [|apply later_refl].
  destruct (existsb _ _); [apply later_refl|]. destruct (o_db_ok x _); [|apply later_refl]. cbn [fst]. split; [exists [EInsert r]; reflexivity|]. rewrite D. cbn. eexists; reflexivity.
Qed.
Lemma ok_text s : ok (source_text_m contents s) (source_text_m contents s).
Proof. unfold source_text_m. destruct (source_text _ s); apply ok_pure. Qed.
Lemma ok_present spans : ok (skip_present contents x spans) (skip_present contents x' spans).
Proof.
  induction spans as [|c rest IH]; [apply ok_pure|]. cbn [skip_present]. apply ok_bind.
  - apply (ok_at (fun w => match w_db w with None => fun w => (w, Ok tt) | Some _ => t <- source_text_m contents (c_span c) ;; db_insert x (Removal (c_span c) t Skipped) end)
      (fun w => match w_db w with None => fun w => (w, Ok tt) | Some _ => t <- source_text_m contents (c_span c) ;; db_insert x' (Removal (c_span c) t Skipped) end)) || idtac.
    split.
    + intros w. destruct (w_db w); [|apply later_refl]. apply (ok_grows _ _ (ok_bind _ _ _ _ (ok_text (c_span c)) (fun t => ok_insert (Removal (c_span c) t Skipped)))).
    + intros w. pose proof (ok_foll _ _ (ok_bind _ _ _ _ (ok_text (c_span c)) (fun t => ok_insert (Removal (c_span c) t Skipped))) w) as F. unfold cut in *. destruct (w_db w); [exact F|left; reflexivity].
  - intros _. apply ok_bind; [exact IH|]. intros n. apply ok_pure.
Qed.
Lemma guards_same ss : guards_ok x' ss = guards_ok x ss.
Proof. induction ss as [|s ss IH]; [reflexivity|]. cbn [guards_ok]. rewrite (st_guard _ _ ST), IH. reflexivity. Qed.
Lemma ok_lift {A} (r : res unit A) : ok (lift r) (lift r).
Proof. apply ok_same; [reflexivity|]. intros w. destruct r; apply later_refl. Qed.
Lemma ok_instrument p spans : ok (instrument_and_write contents x p spans) (instrument_and_write contents x' p spans).
Proof.
  unfold instrument_and_write. cbn zeta. apply ok_bind.
  - apply ok_same; intros w; [rewrite (st_extra _ _ ST); reflexivity|]. unfold lift. destruct (o_extra x _ _ _); apply later_refl.
  - intros e. apply ok_bind; [rewrite guards_same; apply ok_lift|]. intros _.
    assert (H : guard_of x' = guard_of x) by (unfold guard_of; rewrite (st_guard _ _ ST); reflexivity). rewrite H.
    destruct (instrument _ _ _ _ _ _); [apply ok_write|apply ok_pure].
Qed.
(** What is done with a backup at hand, which is then used. *)
Lemma ok_backed {A} p (k k' : path * text -> world -> world * res run_error A) :
  (forall b, ok (k b) (k' b)) ->
  ok (fun w => match backup_new x p w with (w1, Ok b) => k b w1 | (w1, Err e) => (w1, Err e) | (w1, Panic) => (w1, Panic) end)
     (fun w => match backup_new x' p w with (w1, Ok b) => k' b w1 | (w1, Err e) => (w1, Err e) | (w1, Panic) => (w1, Panic) end).
Proof. intros K. exact (ok_bind _ _ _ _ (ok_backup p) K). Qed.
Lemma ok_statements p spans : ok (instrument_statements contents x p spans) (instrument_statements contents x' p spans).
Proof.
  unfold instrument_statements. apply ok_backed. intros b.
  set (m := (instrument_and_write contents x p spans ;; (fun w => (log (EBuild p (w_fs w)) w, Ok (o_build x (w_trace w) p))))).
  set (m' := (instrument_and_write contents x' p spans ;; (fun w => (log (EBuild p (w_fs w)) w, Ok (o_build x' (w_trace w) p))))).
  assert (K : ok m m').
  { apply ok_bind; [apply ok_instrument|]. intros _. apply ok_same; intros w; [rewrite (st_build _ _ ST); reflexivity|apply later_log]. }
  set (fin := fun (y : oracle) (q : world * res run_error (res unit unit)) =>
    match q with
    | (w2, Ok (Ok tt)) => (set_ib (Some b) w2, Ok true)
    | (w2, Ok (Err _)) =>
      match warn y InstrumentationNonbuildable (EWarn InstrumentationNonbuildable) w2 with
      | (w3, Ok _) => (restore b w3, Ok false) | (w3, Err e) => (restore b w3, Err e) | (w3, Panic) => (restore b w3, Panic) end
    | (w2, Ok Panic) => (restore b w2, Panic)
    | (w2, Err e) => (restore b w2, Err e)
    | (w2, Panic) => (restore b w2, Panic)
    end).
  change (ok (fun w => fin x (m w)) (fun w => fin x' (m' w))).
  assert (T : forall w2 r, later w2 (fst (fin x (w2, r)))).
  { intros w2 r. unfold fin. destruct r as [[[]|e|]|e|]; try (apply rest_later, restore_rest); [apply later_same; reflexivity|].
    pose proof (ok_grows _ _ (ok_warn InstrumentationNonbuildable (EWarn InstrumentationNonbuildable)) w2) as G.
    destruct (warn x _ _ w2) as [w3 [?|?|]]; cbn [fst] in *; apply (later_trans _ _ _ G), rest_later, restore_rest. }
  split.
  - intros w. pose proof (ok_grows _ _ K w) as G. destruct (m w) as [w2 r]. exact (later_trans _ _ _ G (T w2 r)).
  - intros w. pose proof (ok_grows _ _ K w) as G. destruct (ok_foll _ _ K w) as [E|((e & D & E) & w0 & R & L0 & L)].
    + rewrite E. destruct (m w) as [w2 r] eqn:Q. cbn [fst] in G. destruct r as [[[]|e|]|e|]; try (left; reflexivity).
      destruct (ok_foll _ _ (ok_warn InstrumentationNonbuildable (EWarn InstrumentationNonbuildable)) w2) as [E2|((e2 & D2 & E2) & w0 & R & L0 & L)].
      * left. unfold fin. rewrite E2. reflexivity.
      * right. unfold cut. rewrite E, Q. cbn [fin]. destruct (warn x' _ _ w2) as [w3 r3]. cbn [fst snd] in *. subst r3. split; [exists e2; auto|].
        exists w0. split; [exact (rest_trans _ _ _ R (restore_rest b w3))|]. split; [exact (later_trans _ _ _ G L0)|].
        destruct (warn x _ _ w2) as [w4 [?|?|]]; cbn [fst] in *; apply (later_trans _ _ _ L), rest_later, restore_rest.
    + right. unfold cut. destruct (m' w) as [w1 r1]. cbn [fst snd] in *. subst r1. cbn [fin fst snd]. split; [exists e; auto|].
      exists w0. split; [exact (rest_trans _ _ _ R (restore_rest b w1))|]. split; [exact L0|]. destruct (m w) as [w2 r]. cbn [fst] in L. exact (later_trans _ _ _ L (T w2 r)).
Qed.
Lemma ok_removal {A} s (k k' : M A) : ok k k' -> ok (with_removal contents x s k) (with_removal contents x' s k').
Proof.
  intros K. unfold with_removal. apply ok_backed. intros b. apply ok_finally; [intros w; apply restore_rest|].
  destruct (remove_text _ _) as [[t0 t]|]; [|apply ok_pure]. apply ok_bind; [apply ok_write|]. intros _. exact K.
Qed.
Lemma ok_test explicit s t : ok (run_test hash16 x explicit s t) (run_test hash16 x' explicit s t).
Proof.
  assert (G : forall w, later w (fst (run_test hash16 x explicit s t w))).
  { intros w. unfold run_test. cbn zeta. destruct (o_exec x _ t s) as [[u|]|e|].
    - destruct (o_perform x _ t s) as [[]|e|]; cbn [fst]; exact (later_trans _ _ _ (later_log _ w) (later_log _ _)).
    - destruct explicit; apply later_log.
    - apply later_log.
    - apply later_log. }
  split; [exact G|]. intros w. specialize (G w). revert G. unfold cut, run_test. cbn zeta.
  set (w1 := log (EExec s t (w_fs w)) w). destruct (st_exec _ _ ST (w_trace w1) t s) as [E|E]; rewrite E.
  - destruct (o_exec x (w_trace w1) t s) as [[u|]|e|]; intros G; try (left; reflexivity).
    set (w2 := log (ERun s t (span_id hash16 s) (w_fs w1)) w1) in *. destruct (st_perform _ _ ST (w_trace w2) t s) as [P|P]; rewrite P; [left; reflexivity|].
    right. cbn [fst snd]. split; [exists BackendFailed; split; [right; reflexivity|reflexivity]|]. exists w2. split; [apply rest_refl|].
    split; [exact (later_trans _ _ _ (later_log _ w) (later_log _ w1))|]. destruct (o_perform x (w_trace w2) t s) as [[]|e|]; apply later_refl.
  - intros G. right. cbn [fst snd]. split; [exists BackendFailed; split; [right; reflexivity|reflexivity]|]. exists w1. split; [apply rest_refl|]. split; [apply later_log|].
    destruct (o_exec x (w_trace w1) t s) as [[u|]|e|]; [|destruct explicit; apply later_refl|apply later_refl..]. destruct (o_perform x _ t s) as [[]|e|]; apply later_log.
Qed.
Lemma ok_fold explicit s tests : forall acc, ok (fold_tests hash16 x explicit s acc tests) (fold_tests hash16 x' explicit s acc tests).
Proof.
  induction tests as [|t tests IH]; intros acc; [apply ok_pure|]. cbn [fold_tests]. apply ok_bind; [|exact IH]. destruct acc as [[]|]; try apply ok_pure. apply ok_test.
Qed.
Lemma ok_candidate explicit c t : ok (test_candidate hash16 x explicit c t) (test_candidate hash16 x' explicit c t).
Proof.
  unfold test_candidate. apply ok_bind; [apply ok_fold|]. intros out. apply ok_bind; [apply ok_ctrlc|]. intros _. apply ok_bind; [|intros _; apply ok_progress].
  destruct out; [|apply ok_pure]. unfold emit. apply ok_bind; [apply ok_insert|]. intros _. apply ok_emit.
Qed.
Lemma ok_one c : ok (one_candidate hash16 contents x c) (one_candidate hash16 contents x' c).
Proof.
  unfold one_candidate. apply ok_bind.
  - apply ok_same; [reflexivity|]. intros w. cbn [fst]. destruct (c_kind c); [apply later_refl|apply rest_later, drop_rest].
  - intros _. apply ok_bind; [apply ok_text|]. intros t. apply ok_at with
      (f := fun w => if match w_ib w with None => true | Some _ => match c_kind c with Statement => false | MethodCall => true end end
        then with_removal contents x (c_span c) (test_candidate hash16 x true c t) else test_candidate hash16 x false c t)
      (f' := fun w => if match w_ib w with None => true | Some _ => match c_kind c with Statement => false | MethodCall => true end end
        then with_removal contents x' (c_span c) (test_candidate hash16 x' true c t) else test_candidate hash16 x' false c t).
    intros w. apply ok_match; [apply ok_removal|]; apply ok_candidate.
Qed.
Lemma ok_loop fuel : forall spans past, ok (candidates_loop hash16 contents x fuel spans past) (candidates_loop hash16 contents x' fuel spans past).
Proof.
  induction fuel as [|f IH]; intros spans past; cbn [candidates_loop]; destruct (skip_past_removals spans past) as [[[mm n] spans'] past']; (apply ok_bind; [apply ok_progress|]); intros _;
  (destruct spans' as [|c rest]; [apply ok_pure|]); (apply ok_bind; [apply ok_one|]); intros _; [apply ok_pure|apply IH].
Qed.
Lemma ok_file p maps past : ok (one_file hash16 contents x p maps past) (one_file hash16 contents x' p maps past).
Proof.
  unfold one_file. destruct (skip_past_removals (stm_iter maps) past) as [[[mm n] spans] past']. apply ok_bind; [apply ok_progress|]. intros _.
  destruct spans as [|c rest]; [apply ok_pure|]. apply ok_bind.
  - apply ok_same; intros w; cbn zeta; [rewrite (st_dry_run _ _ ST); reflexivity|apply later_log].
  - intros r. destruct r as [u|e|].
    + apply ok_bind; [apply ok_pure|]. intros _. apply ok_bind; [apply ok_ctrlc|]. intros _. apply ok_finally; [intros w; apply drop_rest|]. apply ok_bind; [apply ok_statements|]. intros _. apply ok_loop.
    + apply ok_bind; [apply ok_warn|]. intros _. apply ok_bind; [apply ok_ctrlc|]. intros _. apply ok_bind; [apply ok_present|]. intros k. apply ok_bind; [apply ok_progress|]. intros _. apply ok_pure.
    + apply ok_pure.
Qed.
Lemma ok_run files : forall past, ok (run hash16 contents x files past) (run hash16 contents x' files past).
Proof.
  induction files as [|[p m] files IH]; intros past; [apply ok_pure|]. cbn [run]. apply ok_bind; [apply ok_file|exact IH].
Qed.
End Run.

Lemma stricter_refl x : stricter x x. Proof. constructor; auto. Qed.

(** The run as a whole. *)
Lemma stricter_run hash16 contents x x' files fs db : stricter x x' ->
  let a := run_from hash16 contents x files fs db in let a' := run_from hash16 contents x' files fs db in
  a' = a \/ (exists e, denial e /\ snd a' = Err e) /\ stopped_early (w_trace (fst a)) (w_trace (fst a')) /\ rows_before (w_db (fst a')) (w_db (fst a)).
Proof.
  intros ST a a'. destruct (ok_foll _ _ (ok_run hash16 contents x x' ST files (past_of db)) (start fs db)) as [E|(X & w0 & ((rs & R) & D) & _ & [L1 L2])]; [left; exact E|right].
  split; [exact X|]. split; [exists (w_trace w0), rs; split; [exact L1|exact R]|]. unfold a'. unfold run_from. rewrite D. exact L2.
Qed.
