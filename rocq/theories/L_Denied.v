(** Denied warnings end a run, and nothing else about them does. *)
From Verif Require Import Base M_Text S_Text L_Text M_Rewriter M_Span S_Span L_Span M_Instr M_Run S_Run L_Run L_RunFinal L_Resume L_History L_Total.

(** The oracle with nothing denied. *)
Definition allowing (o : oracle) : oracle :=
  Oracle (o_dry_run o) (o_ctrlc o) (fun _ => false) (o_backup_ok o) (o_extra o) (o_guard o) (o_write o) (o_build o)
    (o_exec o) (o_perform o) (o_db_ok o).

Section Denied.
Context (hash16 : text -> text) (contents : path -> text) (o : oracle).
Definition den (e : event) : Prop :=
  match e with EWarn x => o_denied o x = true | EWarnChanged _ => o_denied o FilesChanged = true | _ => False end.
Definition is_restore (e : event) : Prop := match e with ERestore _ => True | _ => False end.
Definition quiet (tr : trace) : Prop := forall e, In e tr -> ~ den e.
Definition stopped (tr : trace) : Prop := exists rs e pre, tr = rs ++ e :: pre /\ den e /\ quiet pre /\ forall x, In x rs -> is_restore x.
Definition fine {A} (new : trace) (r : res run_error A) : Prop :=
  (r = Err WarnDenied /\ stopped new) \/ (r <> Err WarnDenied /\ quiet new).
Definition warned {A} (m : M A) : Prop := forall w, exists new, w_trace (fst (m w)) = new ++ w_trace w /\ fine new (snd (m w)).

Lemma quiet_nil : quiet []. Proof. intros e []. Qed.
Lemma quiet_one e : ~ den e -> quiet [e]. Proof. intros H x [<-|[]]. exact H. Qed.
Lemma quiet_app a b : quiet a -> quiet b -> quiet (a ++ b).
Proof. intros A B e I. apply in_app_or in I as [I|I]; [apply A|apply B]; exact I. Qed.
Lemma stopped_app a b : stopped a -> quiet b -> stopped (a ++ b).
Proof.
  intros [rs [e [pre [-> [D [Q R]]]]]] B. exists rs, e, (pre ++ b). split; [rewrite <- app_assoc; reflexivity|].
  split; [exact D|]. split; [apply quiet_app; assumption|exact R].
Qed.
Lemma stopped_restore p a : stopped a -> stopped (ERestore p :: a).
Proof.
  intros [rs [e [pre [-> [D [Q R]]]]]]. exists (ERestore p :: rs), e, pre. split; [reflexivity|]. split; [exact D|]. split; [exact Q|].
  intros x [<-|I]; [exact I|apply R, I].
Qed.
Lemma fine_app {A} a b (r : res run_error A) : fine a r -> quiet b -> fine (a ++ b) r.
Proof. intros [[E F]|[E F]] B; [left; split; [exact E|apply stopped_app; assumption]|right; split; [exact E|apply quiet_app; assumption]]. Qed.
Lemma fine_restore {A} p a (r : res run_error A) : fine a r -> fine (ERestore p :: a) r.
Proof.
  intros [[E F]|[E F]]; [left; split; [exact E|apply stopped_restore; assumption]|right; split; [exact E|]].
  intros e [<-|I]; [intros []|apply F, I].
Qed.
Lemma fine_conv {A B} e a : fine (A := A) a (Err e) -> fine (A := B) a (Err e).
Proof. intros [[E F]|[E F]]; [left; split; [injection E as ->; reflexivity|exact F]|right; split; [congruence|exact F]]. Qed.
Lemma fine_other {A B} a (r : res run_error A) (r' : res run_error B) : fine a r -> r <> Err WarnDenied -> r' <> Err WarnDenied -> fine a r'.
Proof. intros [[E F]|[E F]] N N'; [contradiction|right; auto]. Qed.

Lemma warned_pure {A} (m : M A) : (forall w, w_trace (fst (m w)) = w_trace w /\ snd (m w) <> Err WarnDenied) -> warned m.
Proof. intros H w. destruct (H w) as [E N]. exists []. split; [exact E|]. right. split; [exact N|apply quiet_nil]. Qed.
Lemma warned_event {A} (m : M A) (f : world -> event) : (forall w, w_trace (fst (m w)) = f w :: w_trace w /\ ~ den (f w) /\ snd (m w) <> Err WarnDenied) -> warned m.
Proof. intros H w. destruct (H w) as [E [N R]]. exists [f w]. split; [exact E|]. right. split; [exact R|apply quiet_one, N]. Qed.
Lemma warned_ret {A} (a : A) : warned (ret a). Proof. apply warned_pure. intros w. split; [reflexivity|discriminate]. Qed.
Lemma warned_panic {A} : warned (@panic A). Proof. apply warned_pure. intros w. split; [reflexivity|discriminate]. Qed.
Lemma warned_fail {A} e : e <> WarnDenied -> warned (@fail A e). Proof. intros N. apply warned_pure. intros w. split; [reflexivity|]. cbn. congruence. Qed.
Lemma warned_bind {A B} (m : M A) (f : A -> M B) : warned m -> (forall a, warned (f a)) -> warned (mbind m f).
Proof.
  intros Hm Hf w. unfold mbind. destruct (Hm w) as [n1 [E1 F1]]. destruct (m w) as [w' [a|e|]]; cbn in *.
  - destruct (Hf a w') as [n2 [E2 F2]]. exists (n2 ++ n1). split; [rewrite E2, E1, app_assoc; reflexivity|].
    apply fine_app; [exact F2|]. destruct F1 as [[X _]|[_ Q]]; [discriminate|exact Q].
  - exists n1. split; [exact E1|]. eapply fine_conv; exact F1.
  - exists n1. split; [exact E1|]. eapply fine_other; [exact F1| |]; discriminate.
Qed.
Lemma warned_restore {A} (m : M A) b : warned m -> warned (finally m (restore b)).
Proof.
  intros Hm w. unfold finally. destruct (Hm w) as [n1 [E1 F1]]. destruct (m w) as [w' r]; cbn in *.
  exists (ERestore (fst b) :: n1). split; [rewrite E1; reflexivity|apply fine_restore, F1].
Qed.
Lemma warned_drop {A} (m : M A) : warned m -> warned (finally m drop_ib).
Proof.
  intros Hm w. unfold finally. destruct (Hm w) as [n1 [E1 F1]]. destruct (m w) as [w' r]; cbn in *.
  unfold drop_ib. destruct (w_ib w') as [b|]; [|exists n1; auto].
  exists (ERestore (fst b) :: n1). cbn. split; [rewrite E1; reflexivity|apply fine_restore, F1].
Qed.
Lemma warned_lift {A} (r : res unit A) : warned (lift r).
Proof. apply warned_pure. intros w. destruct r; split; try reflexivity; discriminate. Qed.
Lemma warned_emit e : ~ den e -> warned (emit_event e).
Proof. intros N. apply (warned_event _ (fun _ => e)). intros w. split; [reflexivity|]. split; [exact N|discriminate]. Qed.
Lemma warned_warn x e : (den e <-> o_denied o x = true) -> warned (warn o x e).
Proof.
  intros D w. exists [e]. unfold warn, mbind, emit_event. destruct (o_denied o x); cbn; (split; [reflexivity|]).
  - left. split; [reflexivity|]. exists [], e, []. split; [reflexivity|]. split; [apply D; reflexivity|]. split; [apply quiet_nil|intros y []].
  - right. split; [discriminate|]. apply quiet_one. intros H. apply D in H. discriminate.
Qed.
Lemma warned_ctrlc : warned (check_ctrlc o).
Proof.
  apply (warned_event _ (fun w => if w_ctrlc w || o_ctrlc o (w_trace w) then ECtrlC else EPoll)). intros w. unfold check_ctrlc.
  destruct (_ || _); (split; [reflexivity|]; split; [intros []|discriminate]).
Qed.
Lemma warned_backup p : warned (backup_new o p).
Proof.
  intros w. unfold backup_new. destruct (o_backup_ok _ _ _); [exists [EBackup p]|exists []]; (split; [reflexivity|]; right; split; [discriminate|]).
  - apply quiet_one. intros [].
  - apply quiet_nil.
Qed.
Lemma warned_write p t : warned (write_file o p t).
Proof.
  apply (warned_event _ (fun w => EWrite p)). intros w. unfold write_file. destruct (o_write _ _ _); (split; [reflexivity|]; split; [intros []|discriminate]).
Qed.
Lemma warned_progress mm n : warned (update_progress o mm n).
Proof.
  apply warned_bind; [destruct mm; [apply warned_warn; cbn; tauto|apply warned_ret]|]. intros _. apply warned_pure. intros w. split; [reflexivity|discriminate].
Qed.
Lemma warned_insert r : warned (db_insert o r).
Proof.
  intros w. unfold db_insert. destruct (w_db w) as [rows|]; [|apply (warned_ret tt w)].
  destruct (existsb _ _); [apply (@warned_fail unit DbFailed ltac:(discriminate) w)|]. destruct (o_db_ok _ _); [|apply (@warned_fail unit DbFailed ltac:(discriminate) w)].
  exists [EInsert r]. split; [reflexivity|]. right. split; [discriminate|]. apply quiet_one. intros [].
Qed.
Lemma warned_source s : warned (source_text_m contents s).
Proof. unfold source_text_m. destruct (source_text _ _); [apply warned_ret|apply warned_fail; discriminate|apply warned_panic]. Qed.
Lemma warned_skip_present l : warned (skip_present contents o l).
Proof.
  induction l as [|c l IH]; [apply warned_ret|]. cbn. apply warned_bind.
  - intros w. destruct (w_db w) as [rows|]; [|apply (warned_ret tt w)]. revert w.
    change (warned (t <- source_text_m contents (c_span c) ;; db_insert o (Removal (c_span c) t Skipped))).
    apply warned_bind; [apply warned_source|]. intros t. apply warned_insert.
  - intros _. apply warned_bind; [exact IH|]. intros n. apply warned_ret.
Qed.
Lemma warned_instrument_write p l : warned (instrument_and_write contents o p l).
Proof.
  unfold instrument_and_write. apply warned_bind; [intros w; apply warned_lift|]. intros ex. apply warned_bind; [apply warned_lift|]. intros _.
  destruct (instrument _ _ _ _ _ _); [apply warned_write|apply warned_panic].
Qed.
Lemma warned_instrument p l : warned (instrument_statements contents o p l).
Proof.
  intros w. unfold instrument_statements. destruct (warned_backup p w) as [n1 [E1 F1]]. destruct (backup_new o p w) as [w1 [b|e|]]; cbn in E1, F1;
    [|exists n1; split; [exact E1|exact (fine_conv _ _ F1)]|exists n1; split; [exact E1|eapply fine_other; [exact F1| |]; discriminate]].
  assert (Q1 : quiet n1) by (destruct F1 as [[X _]|[_ X]]; [discriminate|exact X]).
  assert (K : warned (instrument_and_write contents o p l ;; (fun w => (log (EBuild p (w_fs w)) w, Ok (o_build o (w_trace w) p))))).
  { apply warned_bind; [apply warned_instrument_write|]. intros _. apply (warned_event _ (fun w => EBuild p (w_fs w))). intros v. split; [reflexivity|]. split; [intros []|discriminate]. }
  destruct (K w1) as [n2 [E2 F2]]. destruct (mbind _ _ w1) as [w2 [[[]|e|]|e|]]; cbn in E2, F2.
  - exists (n2 ++ n1). cbn. split; [rewrite E2, E1, app_assoc; reflexivity|]. apply fine_app; [|exact Q1]. eapply fine_other; [exact F2| |]; discriminate.
  - assert (Q2 : quiet n2) by (destruct F2 as [[X _]|[_ X]]; [discriminate|exact X]).
    destruct (warned_warn InstrumentationNonbuildable (EWarn InstrumentationNonbuildable) (iff_refl _) w2) as [n3 [E3 F3]].
    destruct (warn o _ _ w2) as [w3 [[]|e'|]]; cbn in E3, F3; (exists (ERestore (fst b) :: (n3 ++ n2 ++ n1)); cbn; split; [rewrite E3, E2, E1, <- !app_assoc; reflexivity|]);
      apply fine_restore; (apply fine_app; [|apply quiet_app; assumption]).
    + eapply fine_other; [exact F3| |]; discriminate.
    + exact (fine_conv _ _ F3).
    + eapply fine_other; [exact F3| |]; discriminate.
  - exists (ERestore (fst b) :: (n2 ++ n1)). cbn. split; [rewrite E2, E1, <- app_assoc; reflexivity|]. apply fine_restore, fine_app; [|exact Q1]. eapply fine_other; [exact F2| |]; discriminate.
  - exists (ERestore (fst b) :: (n2 ++ n1)). cbn. split; [rewrite E2, E1, <- app_assoc; reflexivity|]. apply fine_restore, fine_app; [|exact Q1]. exact (fine_conv _ _ F2).
  - exists (ERestore (fst b) :: (n2 ++ n1)). cbn. split; [rewrite E2, E1, <- app_assoc; reflexivity|]. apply fine_restore, fine_app; [|exact Q1]. eapply fine_other; [exact F2| |]; discriminate.
Qed.
Lemma warned_removal {A} s (k : M A) : warned k -> warned (with_removal contents o s k).
Proof.
  intros K w. unfold with_removal. destruct (warned_backup (sp_path s) w) as [n1 [E1 F1]]. destruct (backup_new o _ w) as [w1 [b|e|]]; cbn in E1, F1;
    [|exists n1; split; [exact E1|exact (fine_conv _ _ F1)]|exists n1; split; [exact E1|eapply fine_other; [exact F1| |]; discriminate]].
  assert (Q1 : quiet n1) by (destruct F1 as [[X _]|[_ X]]; [discriminate|exact X]).
  assert (H : warned (finally (match remove_text (contents (sp_path s)) s with None => panic | Some (_, t) => write_file o (sp_path s) t ;; k end) (restore b))).
  { apply warned_restore. destruct (remove_text _ _) as [[x t]|]; [|apply warned_panic]. apply warned_bind; [apply warned_write|]. intros _. exact K. }
  destruct (H w1) as [n2 [E2 F2]]. exists (n2 ++ n1). split; [rewrite E2, E1, app_assoc; reflexivity|]. apply fine_app; assumption.
Qed.
Lemma warned_test e s t : warned (run_test hash16 o e s t).
Proof.
  intros w. unfold run_test. cbv zeta. destruct (o_exec _ _ _ _) as [[[]|]|x|].
  - destruct (o_perform _ _ _ _) as [[]|x|]; eexists [ERun s t _ _; EExec s t _]; (split; [reflexivity|]; right; split; [discriminate|]; intros y [<-|[<-|[]]]; intros []).
  - destruct e; exists [EExec s t (w_fs w)]; (split; [reflexivity|]; right; split; [discriminate|]; apply quiet_one; intros []).
  - exists [EExec s t (w_fs w)]; (split; [reflexivity|]; right; split; [discriminate|]; apply quiet_one; intros []).
  - exists [EExec s t (w_fs w)]; (split; [reflexivity|]; right; split; [discriminate|]; apply quiet_one; intros []).
Qed.
Lemma warned_fold e s l : forall acc, warned (fold_tests hash16 o e s acc l).
Proof.
  induction l as [|t l IH]; intros acc; [apply warned_ret|]. cbn. apply warned_bind; [|intros a; apply IH].
  destruct acc as [[]|]; try apply warned_ret; apply warned_test.
Qed.
Lemma warned_candidate e c t : warned (test_candidate hash16 o e c t).
Proof.
  apply warned_bind; [apply warned_fold|]. intros out. apply warned_bind; [apply warned_ctrlc|]. intros _. apply warned_bind; [|intros _; apply warned_progress].
  destruct out; [|apply warned_ret]. apply warned_bind; [apply warned_insert|]. intros _. apply warned_emit. intros [].
Qed.
Lemma warned_one c : warned (one_candidate hash16 contents o c).
Proof.
  apply warned_bind.
  - intros w. cbn. destruct (c_kind c); [apply (warned_ret tt w)|]. apply (warned_drop (ret tt) (warned_ret tt) w).
  - intros _. apply warned_bind; [apply warned_source|]. intros t w. cbv zeta.
    destruct (match w_ib w with None => true | Some _ => _ end); [apply warned_removal; apply warned_candidate|apply warned_candidate].
Qed.
Lemma warned_loop f : forall spans past, warned (candidates_loop hash16 contents o f spans past).
Proof.
  induction f as [|f IH]; intros spans past; cbn; destruct (skip_past_removals spans past) as [[[mm n] sp'] past'];
    (apply warned_bind; [apply warned_progress|]; intros _; destruct sp'; [apply warned_ret|]; apply warned_bind; [apply warned_one|]; intros _); [apply warned_ret|apply IH].
Qed.
Lemma warned_file p m past : warned (one_file hash16 contents o p m past).
Proof.
  unfold one_file. destruct (skip_past_removals _ _) as [[[mm n] sp'] past']. apply warned_bind; [apply warned_progress|]. intros _.
  destruct sp'; [apply warned_ret|]. apply warned_bind.
  { apply (warned_event _ (fun w => EDryRun p (w_fs w))). intros v. split; [reflexivity|]. split; [intros []|discriminate]. }
  intros [[]|e|]; [| |apply warned_panic].
  - apply warned_bind; [apply warned_ret|]. intros _. apply warned_bind; [apply warned_ctrlc|]. intros _. apply warned_drop.
    apply warned_bind; [apply warned_instrument|]. intros _. apply warned_loop.
  - apply warned_bind; [apply warned_warn; cbn; tauto|]. intros _. apply warned_bind; [apply warned_ctrlc|]. intros _.
    apply warned_bind; [apply warned_skip_present|]. intros k. apply warned_bind; [apply warned_progress|]. intros _. apply warned_ret.
Qed.
Lemma warned_run files : forall past, warned (run hash16 contents o files past).
Proof.
  induction files as [|[p m] files IH]; intros past; [apply warned_ret|]. cbn. apply warned_bind; [apply warned_file|]. intros past'. apply IH.
Qed.
Lemma run_from_fine files fs db : let x := run_from hash16 contents o files fs db in fine (w_trace (fst x)) (snd x).
Proof.
  cbv zeta. unfold run_from. destruct (warned_run files (past_of db) (start fs db)) as [new [E F]]. rewrite E. cbn. rewrite app_nil_r. exact F.
Qed.
End Denied.

(** A run that is not ended by a denied warning goes as if nothing were denied. *)
Section Allowed.
Context (hash16 : text -> text) (contents : path -> text) (o : oracle).
Notation o' := (allowing o).
Definition same {A} (m m' : M A) : Prop := forall w, snd (m w) = Err WarnDenied \/ m w = m' w.
Lemma same_refl {A} (m : M A) : same m m. Proof. intros w. right. reflexivity. Qed.
Lemma same_bind {A B} (m m' : M A) (f f' : A -> M B) : same m m' -> (forall a, same (f a) (f' a)) -> same (mbind m f) (mbind m' f').
Proof.
  intros H K w. unfold mbind. destruct (H w) as [E|E].
  - left. destruct (m w) as [w1 r]. cbn in E. subst r. reflexivity.
  - rewrite E. destruct (m' w) as [w1 [a|e|]]; [apply K|right; reflexivity|right; reflexivity].
Qed.
Lemma same_finally {A} (m m' : M A) cl : same m m' -> same (finally m cl) (finally m' cl).
Proof.
  intros H w. unfold finally. destruct (H w) as [E|E]; [left; destruct (m w); exact E|right; rewrite E; reflexivity].
Qed.
Lemma same_warn x e : same (warn o x e) (warn o' x e).
Proof. intros w. unfold warn, mbind, emit_event. cbn. destruct (o_denied o x); [left|right]; reflexivity. Qed.
Lemma same_progress mm n : same (update_progress o mm n) (update_progress o' mm n).
Proof. apply same_bind; [destruct mm; [apply same_warn|apply same_refl]|]. intros _. apply same_refl. Qed.
Lemma same_candidate e c t : same (test_candidate hash16 o e c t) (test_candidate hash16 o' e c t).
Proof.
  apply same_bind; [apply same_refl|]. intros out. apply same_bind; [apply same_refl|]. intros _. apply same_bind; [apply same_refl|]. intros _. apply same_progress.
Qed.
Lemma same_removal {A} s (k k' : M A) : same k k' -> same (with_removal contents o s k) (with_removal contents o' s k').
Proof.
  intros K w. unfold with_removal. change (backup_new o') with (backup_new o). destruct (backup_new o (sp_path s) w) as [w1 [b|e|]]; [|right; reflexivity|right; reflexivity].
  apply same_finally. destruct (remove_text _ _) as [[x t]|]; [|apply same_refl]. apply same_bind; [apply same_refl|]. intros _. exact K.
Qed.
Lemma same_instrument p l : same (instrument_statements contents o p l) (instrument_statements contents o' p l).
Proof.
  intros w. unfold instrument_statements. change (backup_new o') with (backup_new o). destruct (backup_new o p w) as [w1 [b|e|]]; [|right; reflexivity|right; reflexivity].
  change (instrument_and_write contents o') with (instrument_and_write contents o). change (o_build o') with (o_build o).
  destruct (mbind _ _ w1) as [w2 [[[]|e|]|e|]]; try (right; reflexivity).
  destruct (same_warn InstrumentationNonbuildable (EWarn InstrumentationNonbuildable) w2) as [E|E].
  - left. destruct (warn o _ _ w2) as [w3 r]. cbn in E. subst r. reflexivity.
  - right. rewrite E. reflexivity.
Qed.
Lemma same_one c : same (one_candidate hash16 contents o c) (one_candidate hash16 contents o' c).
Proof.
  apply same_bind; [apply same_refl|]. intros _. apply same_bind; [apply same_refl|]. intros t w. cbv zeta.
  destruct (match w_ib w with None => true | Some _ => _ end); [apply same_removal, same_candidate|apply same_candidate].
Qed.
Lemma same_loop f : forall spans past, same (candidates_loop hash16 contents o f spans past) (candidates_loop hash16 contents o' f spans past).
Proof.
  induction f as [|f IH]; intros spans past; cbn; destruct (skip_past_removals spans past) as [[[mm n] sp'] past'];
    (apply same_bind; [apply same_progress|]; intros _; destruct sp'; [apply same_refl|]; apply same_bind; [apply same_one|]; intros _); [apply same_refl|apply IH].
Qed.
Lemma same_file p m past : same (one_file hash16 contents o p m past) (one_file hash16 contents o' p m past).
Proof.
  unfold one_file. destruct (skip_past_removals _ _) as [[[mm n] sp'] past']. apply same_bind; [apply same_progress|]. intros _.
  destruct sp'; [apply same_refl|]. apply same_bind; [apply same_refl|]. intros [[]|e|]; [| |apply same_refl].
  - apply same_bind; [apply same_refl|]. intros _. apply same_bind; [apply same_refl|]. intros _. apply same_finally.
    apply same_bind; [apply same_instrument|]. intros _. apply same_loop.
  - apply same_bind; [apply same_warn|]. intros _. apply same_bind; [apply same_refl|]. intros _.
    apply same_bind; [apply same_refl|]. intros k. apply same_bind; [apply same_progress|]. intros _. apply same_refl.
Qed.
Lemma same_run files : forall past, same (run hash16 contents o files past) (run hash16 contents o' files past).
Proof.
  induction files as [|[p m] files IH]; intros past; [apply same_refl|]. cbn. apply same_bind; [apply same_file|]. intros past'. apply IH.
Qed.
Lemma run_from_allowing files fs db :
  snd (run_from hash16 contents o files fs db) = Err WarnDenied \/ run_from hash16 contents o files fs db = run_from hash16 contents o' files fs db.
Proof. apply same_run. Qed.
End Allowed.

(** On a database without rows, no row gets in the way. *)
Section Fresh.
Context (hash16 : text -> text) (contents : path -> text) (o : oracle) (files : list (path * span_test_maps)) (fs : path -> text).
Hypothesis PR : project files.
Lemma fresh_ok db : db = None \/ db = Some [] -> snd (run_from hash16 contents o files fs db) = Err DbFailed -> exists tr, o_db_ok o tr = false.
Proof.
  intros D E. unfold run_from in E.
  assert (PO : past_of db = []) by (destruct D as [-> | ->]; reflexivity). rewrite PO in E.
  pose proof (run_spec hash16 contents o files fs (usedb db) (fun _ => False) (exists tr, o_db_ok o tr = false) (fun tr H => ex_intro _ tr H)
    (fun _ rs => rs = []) (fun _ => True) (fun _ => False)) as H.
  assert (H' := H ltac:(intros; discriminate) ltac:(intros; discriminate) ltac:(intros; discriminate) ltac:(intros; auto) ltac:(intros; auto) ltac:(intros; contradiction)).
  clear H.
  assert (FR : Fresh (exists tr, o_db_ok o tr = false) (fun _ => True) (all_cands files) (start fs db)).
  { right. split.
    - assert (N : NoDup (map c_span (all_cands files))) by apply PR. assert (WF : forall c, In c (all_cands files) -> wf_span (c_span c)) by (intros c I; apply PR, I).
      clear -N WF. revert N WF. induction (all_cands files) as [|c cs IH]; intros N WF; [constructor|]. cbn in *. apply NoDup_cons_iff in N as [N1 N2]. constructor; [|apply IH; auto].
      intros I. apply in_map_iff in I as [d [X I]]. apply N1. apply in_map_iff. exists d. split; [|exact I]. apply display_inj; auto.
    - intros c rows x _ _ W I. cbn in W. destruct D as [-> | ->]; [discriminate|]. injection W as <-. destruct I. }
  specialize (H' files [] (start fs db) ltac:(auto) (proj1 PR) eq_refl).
  assert (PD : PastDb [] (start fs db)) by (intros r []).
  specialize (H' PD (usedb_ok fs db) ltac:(intros []) I eq_refl ltac:(reflexivity) eq_refl FR).
  destruct (run hash16 contents o files [] (start fs db)) as [w' r]. cbn in E. subst r. destruct H' as (_ & _ & [_ X] & _). exact X.
Qed.
End Fresh.
