(** The progress bar counts every candidate of the run exactly once. *)
From Verif Require Import Base M_Text M_Rewriter M_Span S_Span M_Instr M_Run S_Run.

(** [m] moves the bar by at most [k], and by exactly [k] if it succeeds. *)
Definition adv {A} (k : nat) (m : M A) : Prop := forall w,
  w_progress w <= w_progress (fst (m w)) <= w_progress w + k /\
  forall a, snd (m w) = Ok a -> w_progress (fst (m w)) = w_progress w + k.

Lemma adv_ret {A} (a : A) : adv 0 (ret a).
Proof. intros w. simpl. split; [lia|intros; lia]. Qed.
Lemma adv_fail {A} k e : adv k (@fail A e).
Proof. intros w. simpl. split; [lia|intros; discriminate]. Qed.
Lemma adv_panic {A} k : adv k (@panic A).
Proof. intros w. simpl. split; [lia|intros; discriminate]. Qed.
Lemma adv_bind {A B} k1 k2 (m : M A) (f : A -> M B) : adv k1 m -> (forall a, adv k2 (f a)) -> adv (k1 + k2) (mbind m f).
Proof.
  intros H1 H2 w. unfold mbind. specialize (H1 w). destruct (m w) as [w1 [a|e|]]; simpl in *.
  - destruct H1 as [L E]. specialize (E a eq_refl). destruct (H2 a w1) as [L2 E2]. split; [lia|].
    intros b Eb. rewrite (E2 b Eb). lia.
  - destruct H1 as [L _]. split; [lia|discriminate].
  - destruct H1 as [L _]. split; [lia|discriminate].
Qed.
Lemma adv_bind0 {A B} k (m : M A) (f : A -> M B) : adv 0 m -> (forall a, adv k (f a)) -> adv k (mbind m f).
Proof. intros H1 H2. apply (adv_bind 0 k m f H1 H2). Qed.
Lemma adv_log e : adv 0 (emit_event e).
Proof. intros w. simpl. split; [lia|intros; lia]. Qed.
Lemma adv_finally {A} k (m : M A) c : adv k m -> (forall w, w_progress (c w) = w_progress w) -> adv k (finally m c).
Proof.
  intros H C w. unfold finally. specialize (H w). destruct (m w) as [w' r]. simpl in *. rewrite C. exact H.
Qed.
Lemma adv_same {A} (m : M A) : (forall w, w_progress (fst (m w)) = w_progress w) -> adv 0 m.
Proof. intros H w. rewrite H. split; [lia|intros; lia]. Qed.

Section Progress.
Context (hash16 : text -> text) (contents : path -> text) (o : oracle).

Lemma progress_restore b w : w_progress (restore b w) = w_progress w. Proof. reflexivity. Qed.
Lemma progress_drop w : w_progress (drop_ib w) = w_progress w.
Proof. unfold drop_ib. destruct (w_ib w); reflexivity. Qed.

Lemma adv_warn w e : adv 0 (warn o w e).
Proof. apply adv_bind0; [apply adv_log|]. intros _. destruct (o_denied o w); [apply adv_fail|apply adv_ret]. Qed.
Lemma adv_check : adv 0 (check_ctrlc o).
Proof. apply adv_same. intros w. unfold check_ctrlc. destruct (_ || _); reflexivity. Qed.
Lemma adv_progress mm n : adv n (update_progress o mm n).
Proof.
  unfold update_progress. apply adv_bind0.
  - destruct mm; [apply adv_warn|apply adv_ret].
  - intros _ w. simpl. split; [lia|intros; lia].
Qed.
Lemma adv_backup p : adv 0 (backup_new o p).
Proof. apply adv_same. intros w. unfold backup_new. destruct (o_backup_ok _ _ _); reflexivity. Qed.
Lemma adv_write p t : adv 0 (write_file o p t).
Proof. apply adv_same. intros w. unfold write_file. destruct (o_write _ _ _); reflexivity. Qed.
Lemma adv_insert r : adv 0 (db_insert o r).
Proof.
  apply adv_same. intros w. unfold db_insert. destruct (w_db w); [|reflexivity].
  destruct (existsb _ _); [reflexivity|]. destruct (o_db_ok _ _); reflexivity.
Qed.
Lemma adv_text s : adv 0 (source_text_m contents s).
Proof. unfold source_text_m. destruct (source_text _ _); [apply adv_ret|apply adv_fail|apply adv_panic]. Qed.
Lemma adv_skip_present spans : adv 0 (skip_present contents o spans) /\
  forall w w' n, skip_present contents o spans w = (w', Ok n) -> n = length spans.
Proof.
  induction spans as [|c rest [IH1 IH2]]; simpl.
  - split; [apply adv_ret|]. intros w w' n E. injection E as <- <-. reflexivity.
  - split.
    + apply adv_bind0.
      * intros w. destruct (w_db w); [|simpl; split; [lia|intros; lia]].
        refine ((_ : adv 0 (mbind (source_text_m contents (c_span c)) _)) w).
        apply adv_bind0; [apply adv_text|]. intros t. apply adv_insert.
      * intros _. apply adv_bind0; [exact IH1|]. intros n. apply adv_ret.
    + intros w w' n. unfold mbind at 1. 
      destruct (match w_db w with None => _ | Some _ => _ end) as [w1 [[]|e|]]; try discriminate.
      unfold mbind. destruct (skip_present contents o rest w1) as [w2 [k|e|]] eqn:E; try discriminate.
      intros H. injection H as <- <-. rewrite (IH2 _ _ _ E). reflexivity.
Qed.

Lemma adv_lift {A} (r : res unit A) : adv 0 (lift r).
Proof. apply adv_same. intros w. destruct r; reflexivity. Qed.

Lemma adv_instrument p spans : adv 0 (instrument_statements contents o p spans).
Proof.
  intros w. unfold instrument_statements.
  pose proof (adv_backup p w) as B. destruct (backup_new o p w) as [w1 [b|e|]]; simpl in B; [|simpl; intuition; discriminate|simpl; intuition; discriminate].
  destruct B as [LB EB]. specialize (EB b eq_refl).
  match goal with |- context [mbind ?m ?f w1] => assert (H : adv 0 (mbind m f)) end.
  { apply adv_bind0.
    - unfold instrument_and_write. apply adv_bind0; [intros w0; apply adv_lift|]. intros extra.
      apply adv_bind0; [apply adv_lift|]. intros _. destruct (instrument _ _ _ _ _ _); [apply adv_write|apply adv_panic].
    - intros _. apply adv_same. intros w0. reflexivity. }
  specialize (H w1). 
  destruct (mbind (instrument_and_write contents o p spans) _ w1) as [w2 [[[]|u|]|e|]]; simpl in H |- *.
  - destruct H as [L E]. specialize (E _ eq_refl). split; [lia|intros; lia].
  - destruct H as [L E]. specialize (E _ eq_refl).
    pose proof (adv_warn InstrumentationNonbuildable (EWarn InstrumentationNonbuildable) w2) as HW.
    destruct (warn o _ _ w2) as [w3 [x|x|]]; simpl in HW |- *; destruct HW as [LW EW];
      (split; [lia|intros a Ha; try discriminate; lia]).
  - destruct H as [L E]. specialize (E _ eq_refl). split; [lia|discriminate].
  - destruct H as [L E]. split; [lia|discriminate].
  - destruct H as [L E]. split; [lia|discriminate].
Qed.

Lemma adv_run_test ex s t : adv 0 (run_test hash16 o ex s t).
Proof.
  apply adv_same. intros w. unfold run_test. destruct (o_exec _ _ _ _) as [[[]|]|e|]; try reflexivity.
  - destruct (o_perform _ _ _ _) as [[]| |]; reflexivity.
  - destruct ex; reflexivity.
Qed.
Lemma adv_fold ex s tests : forall acc, adv 0 (fold_tests hash16 o ex s acc tests).
Proof.
  induction tests as [|t ts IH]; intros acc; [apply adv_ret|]. simpl. apply adv_bind0; [|intros a; apply IH].
  destruct acc as [[]|]; try apply adv_ret. apply adv_run_test.
Qed.
Lemma adv_test ex c t : adv 1 (test_candidate hash16 o ex c t).
Proof.
  unfold test_candidate. apply adv_bind0; [apply adv_fold|]. intros out.
  apply adv_bind0; [apply adv_check|]. intros _. apply adv_bind0; [|intros _; apply adv_progress].
  destruct out as [x|]; [|apply adv_ret]. apply adv_bind0; [apply adv_insert|]. intros _. apply adv_log.
Qed.
Lemma adv_removal {A} k s (m : M A) : adv k m -> adv k (with_removal contents o s m).
Proof.
  intros H w. unfold with_removal. pose proof (adv_backup (sp_path s) w) as B.
  destruct (backup_new o (sp_path s) w) as [w1 [b|e|]]; simpl in B |- *.
  - destruct B as [LB EB]. specialize (EB b eq_refl).
    match goal with |- context [finally ?m0 ?c0 w1] => assert (H0 : adv k (finally m0 c0)) end.
    { apply adv_finally; [|intros; reflexivity]. destruct (remove_text _ _) as [[r t]|]; [|apply adv_panic].
      apply adv_bind0; [apply adv_write|]. intros _. exact H. }
    specialize (H0 w1). destruct H0 as [L E]. rewrite EB, Nat.add_0_r in L, E. split; [exact L|exact E].
  - split; [lia|discriminate].
  - split; [lia|discriminate].
Qed.
Lemma adv_one c : adv 1 (one_candidate hash16 contents o c).
Proof.
  unfold one_candidate. apply adv_bind0.
  { apply adv_same. intros w. simpl. destruct (c_kind c); [reflexivity|apply progress_drop]. }
  intros _. apply adv_bind0; [apply adv_text|]. intros t w.
  match goal with |- context [if ?b then _ else _] => destruct b end.
  - apply adv_removal, adv_test.
  - apply adv_test.
Qed.

Lemma skip_past_count fuel : forall mm n spans past mm' n' spans' past',
  skip_past fuel mm n spans past = (mm', n', spans', past') -> n' + length spans' = n + length spans.
Proof.
  induction fuel as [|f IH]; intros mm n spans past mm' n' spans' past' E; simpl in E.
  - injection E as _ <- <- _. reflexivity.
  - destruct spans as [|c spans]; [injection E as _ <- <- _; reflexivity|].
    destruct past as [|r past]; [injection E as _ <- <- _; reflexivity|].
    destruct (span_compare _ _).
    + apply IH in E. simpl. lia.
    + injection E as _ <- <- _. reflexivity.
    + apply IH in E. exact E.
Qed.

Lemma adv_loop fuel : forall spans past, length spans <= fuel ->
  adv (length spans) (candidates_loop hash16 contents o fuel spans past).
Proof.
  induction fuel as [|f IH]; intros spans past L.
  - destruct spans; [|simpl in L; lia]. unfold candidates_loop, skip_past_removals.
    destruct (skip_past _ _ _ _ _) as [[[mm n] spans'] past'] eqn:E. apply skip_past_count in E. simpl in E.
    assert (n = 0) by lia. subst n. destruct spans'; [|simpl in E; lia]. simpl.
    apply adv_bind0; [apply adv_progress|]. intros _. apply adv_ret.
  - cbn [candidates_loop]. unfold skip_past_removals.
    destruct (skip_past _ _ _ _ _) as [[[mm n] spans'] past'] eqn:E. apply skip_past_count in E. simpl in E.
    replace (length spans) with (n + length spans') by lia.
    apply adv_bind; [apply adv_progress|]. intros _. destruct spans' as [|c rest]; [apply adv_ret|].
    apply (adv_bind 1 (length rest)); [apply adv_one|]. intros _. apply IH. simpl in E. lia.
Qed.

Lemma adv_skip_all S (past : list removal) :
  adv (length S) (n <- skip_present contents o S ;; update_progress o None n ;; ret past).
Proof.
  destruct (adv_skip_present S) as [A1 A2]. intros w. specialize (A1 w). specialize (A2 w).
  rewrite (eq_refl : mbind (skip_present contents o S) (fun n => update_progress o None n ;; ret past) w =
    match skip_present contents o S w with
    | (w', Ok a) => (update_progress o None a ;; ret past) w'
    | (w', Err e) => (w', Err e)
    | (w', Panic) => (w', Panic)
    end).
  destruct (skip_present contents o S w) as [w1 [k|e'|]].
  - rewrite (A2 _ _ eq_refl). destruct A1 as [L1 E1]. specialize (E1 k eq_refl). cbn [fst] in E1.
    assert (HA : adv (length S + 0) (update_progress o None (length S) ;; ret past)).
    { apply adv_bind; [apply adv_progress|intros; apply adv_ret]. }
    rewrite Nat.add_0_r in HA. specialize (HA w1). rewrite E1, Nat.add_0_r in HA. exact HA.
  - cbn [fst snd] in *. split; [lia|discriminate].
  - cbn [fst snd] in *. split; [lia|discriminate].
Qed.

Lemma adv_file p m past : adv (length (stm_iter m)) (one_file hash16 contents o p m past).
Proof.
  unfold one_file, skip_past_removals.
  destruct (skip_past _ _ _ _ _) as [[[mm n] spans] past'] eqn:E. apply skip_past_count in E. simpl in E.
  rewrite <- E. apply adv_bind; [apply adv_progress|]. intros _.
  destruct spans as [|c spans]; [apply adv_ret|]. set (S := c :: spans) in *.
  apply adv_bind0; [apply adv_same; intros; reflexivity|]. intros r.
  assert (HW : adv 0 (match r with Err _ => warn o DryRunFailed (EWarn DryRunFailed) | _ => ret tt end)).
  { destruct r; [apply adv_ret|apply adv_warn|apply adv_ret]. }
  assert (HG : forall X : M (list removal), adv (length S) X ->
    adv (length S) ((match r with Err _ => warn o DryRunFailed (EWarn DryRunFailed) | _ => ret tt end) ;; check_ctrlc o ;; X)).
  { intros X HX. apply adv_bind0; [exact HW|]. intros _. apply adv_bind0; [apply adv_check|]. intros _. exact HX. }
  destruct r as [u|e|].
  - apply HG. apply adv_finally; [|apply progress_drop]. apply adv_bind0; [apply adv_instrument|]. intros _.
    apply adv_loop. reflexivity.
  - apply HG. apply adv_skip_all.
  - apply adv_panic.
Qed.

Lemma adv_run files : forall past, adv (length (all_cands files)) (run hash16 contents o files past).
Proof.
  induction files as [|[p m] files IH]; intros past; [apply adv_ret|].
  simpl. unfold all_cands. simpl. rewrite app_length. apply adv_bind; [apply adv_file|]. intros past'. apply IH.
Qed.

Lemma progress_run files fs db :
  w_progress (fst (run_from hash16 contents o files fs db)) <= length (all_cands files) /\
  (snd (run_from hash16 contents o files fs db) = Ok tt ->
   w_progress (fst (run_from hash16 contents o files fs db)) = length (all_cands files)).
Proof.
  destruct (adv_run files (past_of db) (start fs db)) as [L E]. simpl in L, E. unfold run_from. split; [lia|].
  intros H. exact (E tt H).
Qed.

End Progress.
