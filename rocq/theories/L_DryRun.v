(** Lemmas for C81: a pass over the run loop that tells which file each event is about. *)
From Verif Require Import Base M_Text S_Text L_Text M_Rewriter M_Span S_Span L_Span M_Instr M_Run S_Run L_Run L_RunFinal S_DryRun.
From Coq Require Import List.
Local Open Scope list_scope.

Section Pass.
Context (hash16 : text -> text) (contents : path -> text) (o : oracle).
(** [None]: nothing interferes with any file. *)
Definition about (p : option path) (e : event) : Prop := ~ is_dry_run e /\ forall q, concerns e q -> p = Some q.
Definition emits (p : option path) {A} (m : M A) : Prop := forall w, exists new, w_trace (fst (m w)) = new ++ w_trace w /\ Forall (about p) new.

Lemma em_pure {A} p (m : M A) : (forall w, w_trace (fst (m w)) = w_trace w) -> emits p m.
Proof. intros H w. exists []. split; [apply H|constructor]. Qed.
Lemma em_event {A} p (m : M A) (f : world -> event) : (forall w, w_trace (fst (m w)) = f w :: w_trace w /\ about p (f w)) -> emits p m.
Proof. intros H w. destruct (H w) as [E Q]. exists [f w]. split; [exact E|]. constructor; [exact Q|constructor]. Qed.
Lemma em_ret {A} p (a : A) : emits p (ret a). Proof. apply em_pure. reflexivity. Qed.
Lemma em_panic {A} p : emits p (@panic A). Proof. apply em_pure. reflexivity. Qed.
Lemma em_fail {A} p e : emits p (@fail A e). Proof. apply em_pure. reflexivity. Qed.
Lemma em_bind {A B} p (m : M A) (f : A -> M B) : emits p m -> (forall a, emits p (f a)) -> emits p (mbind m f).
Proof.
  intros Hm Hf w. unfold mbind. destruct (Hm w) as [n1 [E1 F1]]. destruct (m w) as [w' [a|e|]]; cbn in *; [|exists n1; auto|exists n1; auto].
  destruct (Hf a w') as [n2 [E2 F2]]. exists (n2 ++ n1). split; [rewrite E2, E1, app_assoc; reflexivity|]. apply Forall_app. auto.
Qed.
Lemma about_restore p q : about p (ERestore q). Proof. split; [intros []|intros x []]. Qed.
Lemma em_restore {A} p (m : M A) b : emits p m -> emits p (finally m (restore b)).
Proof.
  intros Hm w. unfold finally. destruct (Hm w) as [n1 [E1 F1]]. destruct (m w) as [w' r]; cbn in *.
  exists (ERestore (fst b) :: n1). split; [rewrite E1; reflexivity|]. constructor; [apply about_restore|exact F1].
Qed.
Lemma em_drop {A} p (m : M A) : emits p m -> emits p (finally m drop_ib).
Proof.
  intros Hm w. unfold finally. destruct (Hm w) as [n1 [E1 F1]]. destruct (m w) as [w' r]; cbn in *.
  unfold drop_ib. destruct (w_ib w') as [b|]; [|exists n1; auto].
  exists (ERestore (fst b) :: n1). cbn. split; [rewrite E1; reflexivity|]. constructor; [apply about_restore|exact F1].
Qed.
Lemma em_lift {A} p (r : res unit A) : emits p (lift r).
Proof. apply em_pure. intros w. destruct r; reflexivity. Qed.
Lemma em_emit p e : about p e -> emits p (emit_event e).
Proof. intros N. apply (em_event _ _ (fun _ => e)). intros w. split; [reflexivity|exact N]. Qed.
Lemma em_warn p x e : about p e -> emits p (warn o x e).
Proof. intros N. apply em_bind; [apply em_emit, N|]. intros _. destruct (o_denied o x); [apply em_fail|apply em_ret]. Qed.
Ltac idle := split; [intros []|intros ? []].
Lemma em_ctrlc p : emits p (check_ctrlc o).
Proof.
  apply (em_event _ _ (fun w => if w_ctrlc w || o_ctrlc o (w_trace w) then ECtrlC else EPoll)). intros w. unfold check_ctrlc.
  destruct (_ || _); (split; [reflexivity|idle]).
Qed.
Lemma em_backup p : emits (Some p) (backup_new o p).
Proof.
  intros w. unfold backup_new. destruct (o_backup_ok _ _ _); [exists [EBackup p]|exists []]; (split; [reflexivity|]); [|constructor].
  constructor; [|constructor]. split; [intros []|]. intros q Q. cbn in Q. congruence.
Qed.
Lemma em_write p t : emits (Some p) (write_file o p t).
Proof.
  apply (em_event _ _ (fun w => EWrite p)). intros w. unfold write_file. destruct (o_write _ _ _); (split; [reflexivity|]; split; [intros []|]; intros q Q; cbn in Q; rewrite Q; reflexivity).
Qed.
Lemma em_progress p mm n : emits p (update_progress o mm n).
Proof.
  apply em_bind; [destruct mm; [apply em_warn; idle|apply em_ret]|]. intros _. apply em_pure. reflexivity.
Qed.
Lemma em_insert p r : emits p (db_insert o r).
Proof.
  intros w. unfold db_insert. destruct (w_db w) as [rows|]; [|apply (em_ret p tt w)].
  destruct (existsb _ _); [apply (@em_fail unit p DbFailed w)|]. destruct (o_db_ok _ _); [|apply (@em_fail unit p DbFailed w)].
  exists [EInsert r]. split; [reflexivity|]. constructor; [idle|constructor].
Qed.
Lemma em_source p s : emits p (source_text_m contents s).
Proof. unfold source_text_m. destruct (source_text _ _); [apply em_ret|apply em_fail|apply em_panic]. Qed.
Lemma em_skip_present p l : emits p (skip_present contents o l).
Proof.
  induction l as [|c l IH]; [apply em_ret|]. cbn. apply em_bind.
  - intros w. destruct (w_db w) as [rows|]; [|apply (em_ret p tt w)]. revert w.
    change (emits p (t <- source_text_m contents (c_span c) ;; db_insert o (Removal (c_span c) t Skipped))).
    apply em_bind; [apply em_source|]. intros t. apply em_insert.
  - intros _. apply em_bind; [exact IH|]. intros n. apply em_ret.
Qed.
Lemma em_instrument_write p l : emits (Some p) (instrument_and_write contents o p l).
Proof.
  unfold instrument_and_write. apply em_bind; [intros w; apply em_lift|]. intros ex. apply em_bind; [apply em_lift|]. intros _.
  destruct (instrument _ _ _ _ _ _); [apply em_write|apply em_panic].
Qed.
Lemma em_instrument p l : emits (Some p) (instrument_statements contents o p l).
Proof.
  intros w. unfold instrument_statements. destruct (em_backup p w) as [n1 [E1 F1]]. destruct (backup_new o p w) as [w1 [b|e|]]; cbn in E1, F1; [|exists n1; auto|exists n1; auto].
  assert (K : emits (Some p) (instrument_and_write contents o p l ;; (fun w => (log (EBuild p (w_fs w)) w, Ok (o_build o (w_trace w) p))))).
  { apply em_bind; [apply em_instrument_write|]. intros _. apply (em_event _ _ (fun w => EBuild p (w_fs w))). intros v. split; [reflexivity|]. split; [intros []|]. intros q Q. cbn in Q. congruence. }
  destruct (K w1) as [n2 [E2 F2]]. destruct (mbind _ _ w1) as [w2 [[[]|e|]|e|]]; cbn in E2, F2.
  - exists (n2 ++ n1). cbn. split; [rewrite E2, E1, app_assoc; reflexivity|]. apply Forall_app; auto.
  - destruct (em_warn (Some p) InstrumentationNonbuildable (EWarn InstrumentationNonbuildable) ltac:(idle) w2) as [n3 [E3 F3]].
    destruct (warn o _ _ w2) as [w3 [[]|e'|]]; cbn in E3, F3; (exists (ERestore (fst b) :: (n3 ++ n2 ++ n1)); cbn; split; [rewrite E3, E2, E1, <- !app_assoc; reflexivity|]);
      (constructor; [apply about_restore|]; apply Forall_app; split; [exact F3|apply Forall_app; auto]).
  - exists (ERestore (fst b) :: (n2 ++ n1)). cbn. split; [rewrite E2, E1, <- app_assoc; reflexivity|]. constructor; [apply about_restore|apply Forall_app; auto].
  - exists (ERestore (fst b) :: (n2 ++ n1)). cbn. split; [rewrite E2, E1, <- app_assoc; reflexivity|]. constructor; [apply about_restore|apply Forall_app; auto].
  - exists (ERestore (fst b) :: (n2 ++ n1)). cbn. split; [rewrite E2, E1, <- app_assoc; reflexivity|]. constructor; [apply about_restore|apply Forall_app; auto].
Qed.
Lemma em_removal {A} s (k : M A) : emits (Some (sp_path s)) k -> emits (Some (sp_path s)) (with_removal contents o s k).
Proof.
  intros K w. unfold with_removal. destruct (em_backup (sp_path s) w) as [n1 [E1 F1]]. destruct (backup_new o _ w) as [w1 [b|e|]]; cbn in E1, F1; [|exists n1; auto|exists n1; auto].
  assert (H : emits (Some (sp_path s)) (finally (match remove_text (contents (sp_path s)) s with None => panic | Some (_, t) => write_file o (sp_path s) t ;; k end) (restore b))).
  { apply em_restore. destruct (remove_text _ _) as [[x t]|]; [|apply em_panic]. apply em_bind; [apply em_write|]. intros _. exact K. }
  destruct (H w1) as [n2 [E2 F2]]. exists (n2 ++ n1). split; [rewrite E2, E1, app_assoc; reflexivity|]. apply Forall_app; auto.
Qed.
Lemma em_test e s t : emits (Some (sp_path s)) (run_test hash16 o e s t).
Proof.
  assert (A : forall f, about (Some (sp_path s)) (EExec s t f)) by (intros f; split; [intros []|]; intros q Q; cbn in Q; rewrite Q; reflexivity).
  intros w. unfold run_test. cbv zeta. destruct (o_exec _ _ _ _) as [[[]|]|x|].
  - destruct (o_perform _ _ _ _) as [[]|x|]; eexists [ERun s t _ _; EExec s t _]; (split; [reflexivity|]; constructor; [split; [intros []|]; intros q Q; cbn in Q; rewrite Q; reflexivity|constructor; [apply A|constructor]]).
  - destruct e; exists [EExec s t (w_fs w)]; (split; [reflexivity|]; constructor; [apply A|constructor]).
  - exists [EExec s t (w_fs w)]; (split; [reflexivity|]; constructor; [apply A|constructor]).
  - exists [EExec s t (w_fs w)]; (split; [reflexivity|]; constructor; [apply A|constructor]).
Qed.
Lemma em_fold e s l : forall acc, emits (Some (sp_path s)) (fold_tests hash16 o e s acc l).
Proof.
  induction l as [|t l IH]; intros acc; [apply em_ret|]. cbn. apply em_bind; [|intros a; apply IH].
  destruct acc as [[]|]; try apply em_ret; apply em_test.
Qed.
Lemma em_candidate e c t : emits (Some (sp_path (c_span c))) (test_candidate hash16 o e c t).
Proof.
  apply em_bind; [apply em_fold|]. intros out. apply em_bind; [apply em_ctrlc|]. intros _. apply em_bind; [|intros _; apply em_progress].
  destruct out; [|apply em_ret]. apply em_bind; [apply em_insert|]. intros _. apply em_emit. split; [intros []|]. intros q C. cbn in C. subst q. reflexivity.
Qed.
Lemma em_one c : emits (Some (sp_path (c_span c))) (one_candidate hash16 contents o c).
Proof.
  apply em_bind.
  - intros w. cbn. destruct (c_kind c); [apply (em_ret _ tt w)|]. apply (em_drop _ (ret tt) (em_ret _ tt) w).
  - intros _. apply em_bind; [apply em_source|]. intros t w. cbv zeta.
    destruct (match w_ib w with None => true | Some _ => _ end); [apply em_removal; apply em_candidate|apply em_candidate].
Qed.
Lemma skip_past_sub : forall fuel mm n spans past mm' n' spans' past', skip_past fuel mm n spans past = (mm', n', spans', past') -> exists b, spans = b ++ spans'.
Proof.
  induction fuel as [|f IH]; intros mm n spans past mm' n' spans' past' H; cbn in H; [injection H as _ _ <- _; exists []; reflexivity|].
  destruct spans as [|c spans]; [injection H as _ _ <- _; exists []; reflexivity|]. destruct past as [|r past]; [injection H as _ _ <- _; exists []; reflexivity|].
  destruct (span_compare _ _).
  - destruct (IH _ _ _ _ _ _ _ _ H) as [b ->]. exists (c :: b). reflexivity.
  - injection H as _ _ <- _. exists []. reflexivity.
  - destruct (IH _ _ _ _ _ _ _ _ H) as [b E]. exists b. exact E.
Qed.
Lemma em_loop p f : forall spans past, (forall c, In c spans -> sp_path (c_span c) = p) -> emits (Some p) (candidates_loop hash16 contents o f spans past).
Proof.
  induction f as [|f IH]; intros spans past H; cbn; destruct (skip_past_removals spans past) as [[[mm n] sp'] past'] eqn:SK;
    apply skip_past_sub in SK as [b ->]; (apply em_bind; [apply em_progress|]; intros _; destruct sp' as [|c sp']; [apply em_ret|]; apply em_bind; [rewrite <- (H c) by (apply in_or_app; right; left; reflexivity); apply em_one|]; intros _); [apply em_ret|].
  apply IH. intros x I. apply H. apply in_or_app. right. right. exact I.
Qed.

(** A file's events: nothing, or a dry run and then, if it succeeds, what concerns the file. *)
Inductive episode (p : path) (tr : trace) : trace -> Prop :=
| ep_none new : Forall (about None) new -> episode p tr new
| ep_some later fs before : Forall (about None) before -> (Forall (about None) later \/ (exists l, later = l ++ [EPoll] /\ Forall (about (Some p)) l) /\ o_dry_run o (EDryRun p fs :: before ++ tr) p = Ok tt) ->
    episode p tr (later ++ EDryRun p fs :: before).
Lemma file_episode p m past : (forall c, In c (stm_iter m) -> sp_path (c_span c) = p) -> forall w, exists new,
  w_trace (fst (one_file hash16 contents o p m past w)) = new ++ w_trace w /\ episode p (w_trace w) new /\ (dry_runs new <> [] -> stm_iter m <> []).
Proof.
  intros H w. unfold one_file. destruct (skip_past_removals _ _) as [[[mm n] sp'] past'] eqn:SK. apply skip_past_sub in SK as [b SB].
  unfold mbind at 1. destruct (em_progress None mm n w) as [n1 [E1 F1]].
  assert (D1 : dry_runs n1 = []).
  { clear E1. induction F1 as [|e l Q F IH]; [reflexivity|]. destruct e; cbn; try exact IH. destruct Q as [Q _]. destruct (Q I). }
  destruct (update_progress o mm n w) as [w1 [[]|e|]]; cbn [fst] in E1.
  2,3: (exists n1; split; [exact E1|]; split; [apply ep_none, F1|congruence]).
  destruct sp' as [|c sp']; [exists n1; split; [exact E1|]; split; [apply ep_none, F1|congruence]|].
  assert (NE : stm_iter m <> []) by (rewrite SB; destruct b; discriminate).
  unfold mbind at 1. cbv zeta. set (w2 := log (EDryRun p (w_fs w1)) w1).
  assert (E2 : w_trace w2 = EDryRun p (w_fs w1) :: n1 ++ w_trace w) by (cbn; rewrite E1; reflexivity).
  assert (G : forall A (k : M A) (q : option path), emits q k -> q = None ->
    exists new, w_trace (fst (k w2)) = new ++ w_trace w /\ episode p (w_trace w) new /\ (dry_runs new <> [] -> stm_iter m <> [])).
  { intros A k q K C. destruct (K w2) as [n3 [E3 F3]]. exists (n3 ++ EDryRun p (w_fs w1) :: n1). split; [rewrite E3, E2, <- app_assoc; reflexivity|]. split; [|intros _; exact NE].
    apply ep_some; [exact F1|]. subst q. left; exact F3. }
  destruct (o_dry_run o (w_trace w2) p) as [[]|u|] eqn:DR.
  - unfold mbind at 1. cbn [ret]. unfold mbind at 1. destruct (w_ctrlc w2 || o_ctrlc o (w_trace w2)) eqn:CC.
    + assert (CK : check_ctrlc o w2 = (log ECtrlC (set_ctrlc true w2), Err CtrlC)) by (unfold check_ctrlc; rewrite CC; reflexivity). rewrite CK. cbn [fst].
      exists ([ECtrlC] ++ EDryRun p (w_fs w1) :: n1). split; [cbn [log set_ctrlc w_trace]; rewrite E2; reflexivity|]. split; [|intros _; exact NE].
      apply ep_some; [exact F1|]. left. constructor; [idle|constructor].
    + assert (CK : check_ctrlc o w2 = (log EPoll (set_ctrlc false w2), Ok tt)) by (unfold check_ctrlc; rewrite CC; reflexivity). rewrite CK.
      set (w3 := log EPoll (set_ctrlc false w2)). assert (E3 : w_trace w3 = EPoll :: EDryRun p (w_fs w1) :: n1 ++ w_trace w) by (cbn; rewrite E1; reflexivity).
      assert (K : emits (Some p) (finally (instrument_statements contents o p (c :: sp');; candidates_loop hash16 contents o (length (c :: sp')) (c :: sp') past') drop_ib)).
      { apply em_drop. apply em_bind; [apply em_instrument|]. intros _. apply em_loop. intros x I. apply H. rewrite SB. apply in_or_app. right. exact I. }
      destruct (K w3) as [n4 [E4 F4]]. exists ((n4 ++ [EPoll]) ++ EDryRun p (w_fs w1) :: n1). split; [rewrite E4, E3, <- !app_assoc; reflexivity|]. split; [|intros _; exact NE].
      apply ep_some; [exact F1|]. right. split; [exists n4; auto|]. rewrite <- E2. exact DR.
  - refine (G _ _ None _ _); [|reflexivity]. apply em_bind; [apply em_warn; idle|]. intros _. apply em_bind; [apply em_ctrlc|]. intros _.
    apply em_bind; [apply em_skip_present|]. intros k. apply em_bind; [apply em_progress|]. intros _. apply em_ret.
  - refine (G _ panic None _ _); [apply em_panic|reflexivity].
Qed.

(** Each event that concerns a file comes after the file's own successful dry run. *)
Definition orderly (tr : trace) : Prop := forall e pre p, moment (e :: pre) tr -> concerns e p -> exists fs, tried o pre p fs.
Lemma orderly_quiet tr new : orderly tr -> Forall (about None) new -> orderly (new ++ tr).
Proof.
  intros O F. induction F as [|e l Q F IH]; [exact O|]. cbn. intros x pre p [later E] C. destruct later as [|y later].
  - injection E as <- <-. destruct Q as [_ Q]. specialize (Q p C). discriminate.
  - injection E as <- E. apply (IH x pre p); [exists later; exact E|exact C].
Qed.
Lemma orderly_busy tr p fs new : orderly tr -> o_dry_run o (EDryRun p fs :: tr) p = Ok tt -> Forall (about (Some p)) new -> orderly (new ++ EPoll :: EDryRun p fs :: tr).
Proof.
  intros O D F. induction F as [|e l Q F IH].
  - intros x pre q [later E] C. destruct later as [|y later]; [injection E as <- <-; destruct C|]. injection E as <- E. destruct later as [|z later]; [injection E as <- <-; destruct C|]. injection E as <- E. apply (O x pre q); [exists later; exact E|exact C].
  - cbn. intros x pre q [later E] C. destruct later as [|y later].
    + injection E as <- <-. destruct Q as [_ Q]. specialize (Q q C). injection Q as <-. exists fs, l, tr. split; [reflexivity|]. split; [|exact D].
      intros x I. exact (proj1 (proj1 (Forall_forall _ _) F x I)).
    + injection E as <- E. apply (IH x pre q); [exists later; exact E|exact C].
Qed.
Lemma orderly_episode p tr new : orderly tr -> episode p tr new -> orderly (new ++ tr).
Proof.
  intros O E. destruct E as [new F|later fs before F [L|[[l [-> L]] D]]].
  - apply orderly_quiet; assumption.
  - rewrite <- app_assoc. apply orderly_quiet; [|exact L]. cbn. intros x pre q [l E] C. destruct l as [|y l]; [injection E as <- <-; destruct C|]. injection E as <- E.
    apply (orderly_quiet tr before O F x pre q); [exists l; exact E|exact C].
  - rewrite <- !app_assoc. cbn. apply orderly_busy; [apply orderly_quiet; assumption|exact D|exact L].
Qed.
Lemma dry_runs_app a b : dry_runs (a ++ b) = dry_runs a ++ dry_runs b.
Proof. induction a as [|e a IH]; [reflexivity|]. destruct e; cbn; rewrite IH; reflexivity. Qed.
Lemma dry_runs_about q l : Forall (about q) l -> dry_runs l = [].
Proof. intros F. induction F as [|e l [Q _] F IH]; [reflexivity|]. destruct e; cbn; try exact IH. destruct (Q I). Qed.
Lemma dry_runs_episode p tr new : episode p tr new -> dry_runs new = [] \/ dry_runs new = [p].
Proof.
  intros E. destruct E as [new F|later fs before F L].
  - left. eapply dry_runs_about; eassumption.
  - right. rewrite dry_runs_app. cbn. rewrite (dry_runs_about _ _ F). destruct L as [L|[[l [-> L]] _]]; [|rewrite dry_runs_app]; rewrite (dry_runs_about _ _ L); reflexivity.
Qed.
Lemma run_orderly files : paths_ok files -> forall past w, orderly (w_trace w) ->
  orderly (w_trace (fst (run hash16 contents o files past w))) /\
  exists l, rev (dry_runs (w_trace (fst (run hash16 contents o files past w)))) = rev (dry_runs (w_trace w)) ++ l /\ subseq l (map fst (filter (fun f => match stm_iter (snd f) with [] => false | _ => true end) files)).
Proof.
  induction files as [|[p m] files IH]; intros P past w O; [split; [exact O|]; exists []; split; [cbn; rewrite app_nil_r; reflexivity|constructor]|].
  cbn [run]. unfold mbind. destruct (file_episode p m past) with (w := w) as (new & E & Ep & NE).
  { intros c I. apply (P p m c); [left; reflexivity|exact I]. }
  assert (O' : orderly (w_trace (fst (one_file hash16 contents o p m past w)))) by (rewrite E; apply orderly_episode with p; assumption).
  assert (L : exists l, rev (dry_runs new) = l /\ forall rest k, subseq rest (map fst (filter (fun f => match stm_iter (snd f) with [] => false | _ => true end) files)) -> k = l ++ rest -> subseq k (map fst (filter (fun f => match stm_iter (snd f) with [] => false | _ => true end) ((p, m) :: files)))).
  { cbn [filter snd]. destruct (dry_runs_episode _ _ _ Ep) as [D|D]; rewrite D.
    - exists []. split; [reflexivity|]. intros rest k S0 ->. destruct (stm_iter m); cbn; [exact S0|]. apply sub_skip. exact S0.
    - exists [p]. split; [reflexivity|]. intros rest k S0 ->. rewrite D in NE. destruct (stm_iter m); [destruct NE; [discriminate|reflexivity]|]. cbn. apply sub_keep. exact S0. }
  destruct L as (l & Ll & Lk).
  destruct (one_file hash16 contents o p m past w) as [w1 [past'|e|]]; cbn [fst] in E, O'.
  - destruct (IH (fun q x c I J => P q x c (or_intror I) J) past' w1 O') as [H1 (l2 & H2 & H3)]. split; [exact H1|]. exists (l ++ l2). split; [|eapply Lk; [exact H3|reflexivity]].
    rewrite H2, E, dry_runs_app, rev_app_distr, Ll, <- app_assoc. reflexivity.
  - split; [exact O'|]. cbn [fst]. exists l. split; [rewrite E, dry_runs_app, rev_app_distr, Ll; reflexivity|]. eapply Lk; [apply sub_nil|rewrite app_nil_r; reflexivity].
  - split; [exact O'|]. cbn [fst]. exists l. split; [rewrite E, dry_runs_app, rev_app_distr, Ll; reflexivity|]. eapply Lk; [apply sub_nil|rewrite app_nil_r; reflexivity].
Qed.
End Pass.
