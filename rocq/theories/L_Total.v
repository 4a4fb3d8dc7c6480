(** In a healthy environment a run ends normally, or with a database error. *)
From Verif Require Import Base M_Text S_Text L_Text M_Rewriter M_Span S_Span L_Span M_Instr S_Instr L_Instr M_Run S_Run L_Run L_RunFinal.

Definition mild {A} (r : res run_error A) : Prop := r = Err DbFailed \/ exists a, r = Ok a.
Definition InvQ (Q : Prop) (w : world) : Prop := w_ctrlc w = false /\ (w_ib w <> None -> Q).
Definition calm {A} (Q : Prop) (m : M A) : Prop :=
  forall w, InvQ Q w -> InvQ Q (fst (m w)) /\ mild (snd (m w)).

Lemma mild_ok {A} (a : A) : mild (Ok a). Proof. right. eauto. Qed.
Global Hint Resolve mild_ok : core.

Lemma calm_bind {A B} Q (m : M A) (f : A -> M B) : calm Q m -> (forall a, calm Q (f a)) -> calm Q (mbind m f).
Proof.
  intros H K w I. unfold mbind. destruct (H w I) as [I1 M1]. destruct (m w) as [w1 r1]. cbn in *.
  destruct M1 as [->|(a & ->)]; [split; [exact I1|now left]|]. now apply K.
Qed.
Lemma calm_ret {A} Q (a : A) : calm Q (ret a). Proof. intros w I. split; [exact I|apply mild_ok]. Qed.
Lemma calm_log Q e : calm Q (emit_event e). Proof. intros w I. split; [exact I|apply mild_ok]. Qed.
Lemma calm_finally {A} Q (m : M A) f : calm Q m -> (forall w, InvQ Q w -> InvQ Q (f w)) -> calm Q (finally m f).
Proof. intros H K w I. unfold finally. destruct (H w I) as [I1 M1]. destruct (m w) as [w1 r1]. cbn in *. auto. Qed.
Lemma inv_restore Q b w : InvQ Q w -> InvQ Q (restore b w). Proof. intros I. exact I. Qed.
Lemma inv_drop Q w : InvQ Q w -> InvQ Q (drop_ib w).
Proof. intros [I J]. unfold drop_ib. destruct (w_ib w) eqn:E; [|split; [exact I|now rewrite E]]. split; [exact I|]. intros []. reflexivity. Qed.

Lemma mbind_eq {A B} (m : M A) (f : A -> M B) w : mbind m f w =
  match m w with (w', Ok a) => f a w' | (w', Err e) => (w', Err e) | (w', Panic) => (w', Panic) end.
Proof. reflexivity. Qed.

Section Total.
Context (hash16 : text -> text) (contents : path -> text) (l : path -> lang).
Context (files : list (path * span_test_maps)) (o : oracle).
Hypothesis H : healthy hash16 contents l files o.
Hypothesis P_ok : paths_ok files.

Lemma calm_warn Q w e : calm Q (warn o w e).
Proof. apply calm_bind; [apply calm_log|]. intros _. rewrite (he_denied _ _ _ _ _ H). apply calm_ret. Qed.

Lemma calm_check Q : calm Q (check_ctrlc o).
Proof.
  intros w [I J]. unfold check_ctrlc. rewrite I, (he_ctrlc _ _ _ _ _ H). cbn. split; [split; [reflexivity|exact J]|apply mild_ok].
Qed.
Lemma calm_progress Q mm n : calm Q (update_progress o mm n).
Proof.
  apply calm_bind; [destruct mm; [apply calm_warn|apply calm_ret]|]. intros _ w I. split; [exact I|apply mild_ok].
Qed.
Lemma calm_insert Q r : calm Q (db_insert o r).
Proof.
  intros w I. unfold db_insert. destruct (w_db w); [|split; [exact I|apply mild_ok]].
  destruct (existsb _ l0); [split; [exact I|now left]|]. rewrite (he_db _ _ _ _ _ H). split; [exact I|apply mild_ok].
Qed.
Lemma cand_file c : In c (all_cands files) -> exists m, In (sp_path (c_span c), m) files /\ In c (stm_iter m).
Proof. apply all_cands_path. exact P_ok. Qed.

Lemma calm_text Q c : In c (all_cands files) -> calm Q (source_text_m contents (c_span c)).
Proof.
  intros Hc. unfold source_text_m. destruct (cand_file c Hc) as (m & IF & _).
  destruct (he_denotes _ _ _ _ _ H c Hc) as (x & y & z & BT).
  rewrite (source_text_complete _ _ _ _ _ (he_scalars _ _ _ _ _ H _ _ IF) BT). apply calm_ret.
Qed.

Lemma calm_skip Q : forall spans, (forall c, In c spans -> In c (all_cands files)) -> calm Q (skip_present contents o spans).
Proof.
  induction spans as [|c rest IH]; intros HC; cbn; [apply calm_ret|].
  apply calm_bind.
  - intros w I. destruct (w_db w); [|split; [exact I|apply mild_ok]].
    apply (calm_bind Q); [apply calm_text, HC; now left|intros; apply calm_insert|exact I].
  - intros _. apply calm_bind; [apply IH; intros x Hx; apply HC; now right|]. intros n. apply calm_ret.
Qed.

Lemma calm_write Q p t : calm Q (write_file o p t).
Proof. intros w I. unfold write_file. rewrite (he_write _ _ _ _ _ H). split; [exact I|apply mild_ok]. Qed.

Lemma calm_run_test Q ex s t : (ex = false -> forall tr, o_exec o tr t s <> Ok None) -> calm Q (run_test hash16 o ex s t).
Proof.
  intros E w I. unfold run_test. set (w1 := log _ w). destruct (he_exec _ _ _ _ _ H (w_trace w1) t s) as (x & X). rewrite X.
  destruct x as [u|].
  - set (w2 := log (ERun _ _ _ _) w1). destruct (he_perform _ _ _ _ _ H (w_trace w2) t s) as (y & ->). destruct y; (split; [exact I|apply mild_ok]).
  - destruct ex; [split; [exact I|apply mild_ok]|]. destruct (E eq_refl _ X).
Qed.
Lemma calm_fold Q ex s : forall tests acc, (ex = false -> forall t tr, o_exec o tr t s <> Ok None) ->
  calm Q (fold_tests hash16 o ex s acc tests).
Proof.
  induction tests as [|t tests IH]; intros acc E; cbn; [apply calm_ret|]. apply calm_bind; [|intros a; now apply IH].
  destruct acc as [[]|]; try apply calm_ret. apply calm_run_test. auto.
Qed.
Lemma calm_test Q ex c t : (ex = false -> forall t tr, o_exec o tr t (c_span c) <> Ok None) ->
  calm Q (test_candidate hash16 o ex c t).
Proof.
  intros E. apply calm_bind; [now apply calm_fold|]. intros out. apply calm_bind; [apply calm_check|]. intros _.
  apply calm_bind; [|intros; apply calm_progress]. destruct out; [|apply calm_ret].
  apply calm_bind; [apply calm_insert|]. intros _. apply calm_log.
Qed.
Lemma calm_removal {A} Q c (k : M A) : In c (all_cands files) -> calm Q k -> calm Q (with_removal contents o (c_span c) k).
Proof.
  intros Hc K w I. unfold with_removal, backup_new. rewrite (he_backup _ _ _ _ _ H).
  destruct (he_denotes _ _ _ _ _ H c Hc) as (x & y & z & BT).
  assert (R : remove_text (contents (sp_path (c_span c))) (c_span c) = Some (y, x ++ z)) by (apply remove_text_iff; eauto).
  rewrite R. apply (calm_finally Q (write_file o (sp_path (c_span c)) (x ++ z) ;; k)); [|intros; now apply inv_restore|exact I].
  apply calm_bind; [apply calm_write|]. intros _. exact K.
Qed.

Definition built (p : path) : Prop := exists tr, o_build o tr p = Ok tt.

Lemma statement_in m c : In c (stm_iter m) -> c_kind c = Statement -> In (c_span c) (map fst (stm_statement m)).
Proof.
  unfold stm_iter. intros Hc K. apply in_app_or in Hc as [Hc|Hc]; apply in_map_iff in Hc as (e & <- & He); [cbn; now apply in_map|discriminate].
Qed.

Lemma calm_one c : In c (all_cands files) -> calm (built (sp_path (c_span c))) (one_candidate hash16 contents o c).
Proof.
  intros Hc. unfold one_candidate. apply calm_bind.
  { intros w I. cbn. split; [|apply mild_ok]. destruct (c_kind c); [exact I|now apply inv_drop]. }
  intros _. apply calm_bind; [now apply calm_text|]. intros t w I.
  assert (EX : calm (built (sp_path (c_span c))) (with_removal contents o (c_span c) (test_candidate hash16 o true c t))).
  { apply calm_removal; [exact Hc|]. apply calm_test. discriminate. }
  destruct (w_ib w) eqn:EI; [|now apply EX]. destruct (c_kind c) eqn:EK; [|now apply EX].
  apply calm_test; [|exact I]. intros _ t' tr. destruct I as [_ B]. destruct B as (tr0 & B); [rewrite EI; discriminate|].
  destruct (cand_file c Hc) as (m & IF & IM).
  eapply (he_instrumented _ _ _ _ _ H); [exact B|exact IF|]. now apply statement_in.
Qed.

Lemma calm_loop p : forall fuel spans past, (forall c, In c spans -> In c (all_cands files) /\ sp_path (c_span c) = p) ->
  calm (built p) (candidates_loop hash16 contents o fuel spans past).
Proof.
  assert (SUF : forall fuel mm n spans past mm' n' spans' past',
    skip_past fuel mm n spans past = (mm', n', spans', past') -> forall c : cand, In c spans' -> In c spans).
  { induction fuel as [|f IH]; intros mm n spans past mm' n' spans' past' E c Hc; cbn in E; [injection E as _ _ <- _; exact Hc|].
    destruct spans as [|a spans]; [injection E as _ _ <- _; exact Hc|]. destruct past as [|r past]; [injection E as _ _ <- _; exact Hc|].
    destruct (span_compare _ _); [|injection E as _ _ <- _; exact Hc|eapply IH; eassumption]. right. eapply IH; eassumption. }
  induction fuel as [|f IH]; intros spans past HC; cbn [candidates_loop]; unfold skip_past_removals;
    destruct (skip_past _ _ _ _ _) as [[[mm n] spans'] past'] eqn:E; apply calm_bind; try apply calm_progress; intros _;
    assert (HC' : forall c, In c spans' -> In c (all_cands files) /\ sp_path (c_span c) = p) by (intros c Hc; apply HC; eapply SUF; eassumption);
    (destruct spans' as [|c rest]; [apply calm_ret|]; apply calm_bind;
      [destruct (HC' c (or_introl eq_refl)) as [X <-]; now apply calm_one|intros _]); [apply calm_ret|].
  apply IH. intros x Hx. apply HC'. now right.
Qed.

Lemma guards_ok_ok : forall sts, guards_ok o sts = Ok tt.
Proof. induction sts as [|s sts IH]; cbn; [reflexivity|]. now rewrite (he_guard _ _ _ _ _ H). Qed.

Lemma instrument_written p m pre spans : In (p, m) files -> stm_iter m = pre ++ spans ->
  forall w, exists t, instrument_and_write contents o p spans w =
    (log (EWrite p) (set_fs (put_file p t (w_fs w)) w), Ok tt).
Proof.
  intros IF ES w. unfold instrument_and_write, mbind at 1.
  destruct (he_extra _ _ _ _ _ H (w_trace w) p (length (take_statements spans))) as (ex & EX & EB).
  rewrite EX. cbn [lift]. unfold mbind at 1. rewrite guards_ok_ok. cbn [lift].
  destruct (proj1 (take_statements_iter m pre spans ES)) as (pre' & TS).
  assert (L : layout (contents p) (take_statements spans)).
  { eapply layout_suffix. rewrite <- TS. now apply (he_layout _ _ _ _ _ H). }
  assert (X : extra_before (contents p) ex (take_statements spans)).
  { specialize (EB m IF). unfold extra_before in *. destruct ex as [[q u]|]; [|exact Logic.I].
    destruct EB as [H1 H2]. split; [exact H1|]. intros s Hs'. apply H2. rewrite TS. apply in_or_app. now right. }
  destruct (instrument_equiv hash16 (l p) ex (contents p) _ L X) as (xs & I1 & _).
  assert (EQ : instrument (fun c => c) ex (guard_of o) end_text (contents p) (take_statements spans)
    = instrument_text hash16 (l p) ex (contents p) (take_statements spans)).
  { unfold instrument_text, instrument.
    assert (EM : forall l0 m0, (forall x, In x l0 -> sp_path x = p) ->
       insertion_map (guard_of o) end_text l0 m0
       = insertion_map (fun x => guard_text (l p) (span_id hash16 x)) end_text l0 m0).
    { induction l0 as [|x l0 IH]; intros m0 HP0; cbn; [reflexivity|].
      assert (GX : guard_of o x = guard_text (l p) (span_id hash16 x))
        by (unfold guard_of; rewrite (he_guard _ _ _ _ _ H), (HP0 x (or_introl eq_refl)); reflexivity).
      rewrite GX. apply IH. intros y Hy. apply HP0. now right. }
    rewrite EM; [reflexivity|]. intros x Hx. assert (Hm : In x (map fst (stm_statement m))) by (rewrite TS; apply in_or_app; now right).
    apply in_map_iff in Hm as (e & <- & He).
    apply (P_ok p m (Cand (fst e) Statement (snd e)) IF). unfold stm_iter. apply in_or_app. left.
    apply in_map_iff. exists e. auto. }
  rewrite EQ, I1. unfold write_file. rewrite (he_write _ _ _ _ _ H). eexists. reflexivity.
Qed.

Lemma calm_instrument p m pre spans : In (p, m) files -> stm_iter m = pre ++ spans ->
  forall w, InvQ False w -> InvQ (built p) (fst (instrument_statements contents o p spans w)) /\ mild (snd (instrument_statements contents o p spans w)).
Proof.
  intros IF ES w I. unfold instrument_statements, backup_new. rewrite (he_backup _ _ _ _ _ H).
  destruct (instrument_written p m pre spans IF ES (log (EBackup p) w)) as (t & EW).
  set (w2 := log (EWrite p) (set_fs (put_file p t (w_fs (log (EBackup p) w))) (log (EBackup p) w))) in EW.
  assert (EB : (instrument_and_write contents o p spans ;;
           (fun w => (log (EBuild p (w_fs w)) w, Ok (o_build o (w_trace w) p)))) (log (EBackup p) w)
    = (log (EBuild p (w_fs w2)) w2, Ok (o_build o (w_trace w2) p))) by (unfold mbind; rewrite EW; reflexivity).
  rewrite EB.
  assert (I2 : InvQ False w2) by exact I. cbv beta iota.
  set (w2' := log (EBuild p (w_fs w2)) w2).
  destruct (o_build o (w_trace w2) p) as [[]|e|] eqn:EBu.
  - cbn. split; [|apply mild_ok]. split; [apply I|]. intros _. eexists. exact EBu.
  - unfold warn, mbind, emit_event. rewrite (he_denied _ _ _ _ _ H). cbn. split; [|apply mild_ok].
    split; [apply I|]. intros Z. destruct I as [_ J]. destruct (J Z).
  - destruct (he_build _ _ _ _ _ H _ _ EBu).
Qed.

Lemma calm_file p m past : In (p, m) files -> calm False (one_file hash16 contents o p m past).
Proof.
  intros IF. unfold one_file, skip_past_removals.
  destruct (skip_past _ _ _ _ _) as [[[mm n] spans] past'] eqn:E.
  assert (SUF : exists pre, stm_iter m = pre ++ spans).
  { assert (G : forall fuel mm n spans past mm' n' spans' past',
      skip_past fuel mm n spans past = (mm', n', spans', past') -> exists pre : list cand, spans = pre ++ spans').
    { clear. induction fuel as [|f IH]; intros mm n spans past mm' n' spans' past' E; cbn in E; [injection E as _ _ <- _; now exists []|].
      destruct spans as [|a spans]; [injection E as _ _ <- _; now exists []|]. destruct past as [|r past]; [injection E as _ _ <- _; now exists []|].
      destruct (span_compare _ _); [|injection E as _ _ <- _; now exists []|eapply IH; eassumption].
      destruct (IH _ _ _ _ _ _ _ _ E) as (pre & ->). now exists (a :: pre). }
    eapply G; exact E. }
  destruct SUF as (pre & ES).
  assert (HC : forall c, In c spans -> In c (all_cands files) /\ sp_path (c_span c) = p).
  { intros c Hc. assert (In c (stm_iter m)) by (rewrite ES; apply in_or_app; now right).
    split; [apply in_flat_map; exists (p, m); auto|]. eapply P_ok; eassumption. }
  apply calm_bind; [apply calm_progress|]. intros _. destruct spans as [|c0 rest]; [apply calm_ret|].
  set (spans := c0 :: rest) in *.
  intros w I. rewrite mbind_eq. set (w1 := log (EDryRun p (w_fs w)) w). cbv beta iota zeta.
  assert (I1 : InvQ False w1) by exact I.
  destruct (o_dry_run o (w_trace w1) p) as [[]|e|] eqn:ED.
  - assert (IN : forall wx, InvQ False wx ->
       InvQ False (fst (finally (instrument_statements contents o p spans ;; candidates_loop hash16 contents o (length spans) spans past') drop_ib wx)) /\
       mild (snd (finally (instrument_statements contents o p spans ;; candidates_loop hash16 contents o (length spans) spans past') drop_ib wx))).
    { intros wx Ix. unfold finally, mbind. pose proof (calm_instrument p m pre spans IF ES wx Ix) as [J1 J2].
      destruct (instrument_statements contents o p spans wx) as [w2 r2]. cbn [fst snd] in J1, J2.
      assert (DR : forall w3, InvQ (built p) w3 -> InvQ False (drop_ib w3)).
      { intros w3 [K1 _]. unfold drop_ib. destruct (w_ib w3) eqn:E3; (split; [exact K1|]); [intros []; reflexivity|].
        rewrite E3. intros []. reflexivity. }
      destruct J2 as [->|(a & ->)]; [split; [now apply DR|now left]|].
      destruct (calm_loop p (length spans) spans past' HC w2 J1) as [L1 L2].
      destruct (candidates_loop hash16 contents o (length spans) spans past' w2) as [w3 r3]. cbn [fst snd] in *. auto. }
    apply (calm_bind False (ret tt)); [apply calm_ret|intros _|exact I1].
    apply calm_bind; [apply calm_check|]. intros _ wx. apply IN.
  - apply (calm_bind False (warn o DryRunFailed (EWarn DryRunFailed))); [apply calm_warn|intros _|exact I1].
    apply calm_bind; [apply calm_check|]. intros _. apply calm_bind; [apply calm_skip; intros c Hc; now apply HC|].
    intros k. apply calm_bind; [apply calm_progress|]. intros _. apply calm_ret.
  - destruct (he_dry _ _ _ _ _ H _ _ ED).
Qed.

Lemma calm_run : forall fl past, (forall f, In f fl -> In f files) -> calm False (run hash16 contents o fl past).
Proof.
  induction fl as [|[p m] fl IH]; intros past HI; cbn; [apply calm_ret|].
  apply calm_bind; [apply calm_file, HI; now left|]. intros past'. apply IH. intros f Hf. apply HI. now right.
Qed.

Lemma run_healthy fs db : let r := snd (run_from hash16 contents o files fs db) in r = Ok tt \/ r = Err DbFailed.
Proof.
  unfold run_from. destruct (calm_run files (past_of db) ltac:(auto) (start fs db)) as [_ [E|([] & E)]]; [|now right|now left].
  split; [reflexivity|]. intros []. reflexivity.
Qed.
End Total.
