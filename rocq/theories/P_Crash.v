(** Property theorems C72: runs that are killed. *)
From Verif Require Import Base M_Text M_Rewriter M_Instr M_Span M_Run S_Run L_Run S_Crash P_Run.
Local Open Scope list_scope.

(** ** Traces in which backups are not nested *)
Fixpoint live (tr : trace) : option path :=
  match tr with
  | [] => None
  | EBackup p :: _ => Some p
  | ERestore _ :: _ => None
  | _ :: r => live r
  end.
Fixpoint wf (tr : trace) : Prop :=
  match tr with
  | [] => True
  | e :: r =>
    wf r /\ match e with EBackup _ => live r = None | ERestore p | EWrite p => live r = Some p | _ => True end
  end.
Definition calm (e : event) : Prop := forall p, e <> EBackup p /\ e <> EWrite p /\ e <> ERestore p.
Lemma live_calm e tr : calm e -> live (e :: tr) = live tr.
Proof. intros C. destruct e; try reflexivity; destruct (C p) as (A & B & D); congruence. Qed.
Lemma wf_calm e tr : calm e -> wf tr -> wf (e :: tr).
Proof. intros C W. split; [exact W|]. destruct e; auto; destruct (C p) as (A & B & D); congruence. Qed.

Lemma wf_disk fs0 tr f c : disk_after fs0 tr f c -> wf tr ->
  match live tr with
  | None => (forall q, f q = fs0 q) /\ forall q, c q = None
  | Some p => (forall q, q <> p -> f q = fs0 q) /\ c p = Some (fs0 p) /\ forall q, q <> p -> c q = None
  end.
Proof.
  induction 1 as [|p tr f c D IH|p tr f c t D IH|p tr f c t D IH E|e tr f c D IH C]; intros W.
  - cbn [live]. auto.
  - destruct W as [W L]. specialize (IH W). rewrite L in IH. destruct IH as [IH1 IH2]. cbn [live]. split; [intros q _; apply IH1|]. unfold save. split; [rewrite path_eqb_refl, IH1; reflexivity|].
    intros q N. destruct (path_eqb p q) eqn:Q; [apply path_eqb_eq in Q; congruence|apply IH2].
  - destruct W as [W L]. specialize (IH W). cbn [live]. rewrite L in IH |- *. destruct IH as (IH1 & IH2 & IH3). split; [|auto]. intros q N. unfold put_file.
    destruct (path_eqb p q) eqn:Q; [apply path_eqb_eq in Q; congruence|apply IH1, N].
  - destruct W as [W L]. specialize (IH W). cbn [live]. rewrite L in IH. destruct IH as (IH1 & IH2 & IH3). assert (t = fs0 p) by congruence. subst t. split; intros q.
    + unfold put_file. destruct (path_eqb p q) eqn:Q; [apply path_eqb_eq in Q; congruence|]. apply IH1. intros ->. rewrite path_eqb_refl in Q. discriminate.
    + unfold save. destruct (path_eqb p q) eqn:Q; [reflexivity|]. apply IH3. intros ->. rewrite path_eqb_refl in Q. discriminate.
  - rewrite (live_calm e tr C). apply IH. destruct W as [W _]. exact W.
Qed.
Lemma wf_moment a b : moment a b -> wf b -> wf a.
Proof. intros (l & ->). induction l as [|e l IH]; [auto|]. cbn [app]. intros [W _]. apply IH, W. Qed.

Section Inv.
Context (hash16 : text -> text) (contents : path -> text) (o : oracle) (fs0 : path -> text).

(** Every event that tells of a disk tells of one that may be there. *)
Fixpoint true_disks (tr : trace) : Prop :=
  match tr with
  | [] => True
  | e :: r => true_disks r /\ forall f, disk_of e = Some f -> exists c, disk_after fs0 r f c
  end.
(** The world is what its trace says. *)
Definition sound (w : world) : Prop :=
  wf (w_trace w) /\ true_disks (w_trace w) /\ exists c, disk_after fs0 (w_trace w) (w_fs w) c.
(** Nothing on disk happens. *)
Definition quiet (w w' : world) : Prop := w_fs w' = w_fs w /\ w_ib w' = w_ib w /\ (sound w -> sound w') /\ live (w_trace w') = live (w_trace w).
Lemma quiet_refl w : quiet w w. Proof. unfold quiet. auto. Qed.
Lemma quiet_trans a b c : quiet a b -> quiet b c -> quiet a c.
Proof. intros (A1 & A2 & A3 & A4) (B1 & B2 & B3 & B4). unfold quiet. rewrite B1, B2, B4. split; [exact A1|]. split; [exact A2|]. split; [|exact A4]. intros Q. apply B3, A3, Q. Qed.
Lemma quiet_log e w : calm e -> (forall f, disk_of e = Some f -> f = w_fs w) -> quiet w (log e w).
Proof.
  intros C D. split; [reflexivity|]. split; [reflexivity|]. split; [|apply live_calm, C]. intros (W & T & c & A). cbn [log w_trace w_fs]. split; [apply wf_calm; assumption|].
  split; [|exists c; apply da_other; assumption]. split; [exact T|]. intros f E. apply D in E. subst f. exists c. exact A.
Qed.
Lemma quiet_same w w' : w_fs w' = w_fs w -> w_ib w' = w_ib w -> w_trace w' = w_trace w -> quiet w w'.
Proof. intros A B C. unfold quiet, sound. rewrite A, B, C. auto. Qed.
Definition silent {A} (m : M A) : Prop := forall w, quiet w (fst (m w)).
Lemma silent_bind {A B} (m : M A) (f : A -> M B) : silent m -> (forall a, silent (f a)) -> silent (mbind m f).
Proof.
  intros H K w. unfold mbind. specialize (H w). destruct (m w) as [w' [a|e|]]; cbn [fst] in *; [|exact H|exact H]. eapply quiet_trans; [exact H|apply K].
Qed.
Lemma silent_ret {A} (a : A) : silent (ret a). Proof. intros w. apply quiet_refl. Qed.
Lemma silent_fail {A} e : silent (fail (A := A) e). Proof. intros w. apply quiet_refl. Qed.
Lemma silent_panic {A} : silent (panic (A := A)). Proof. intros w. apply quiet_refl. Qed.
Ltac calm := intros ?; repeat split; discriminate.
Lemma silent_warn rw e : calm e -> disk_of e = None -> silent (warn o rw e).
Proof. intros C D. apply silent_bind; [|intros _; destruct (o_denied o rw); [apply silent_fail|apply silent_ret]]. intros w. apply quiet_log; [exact C|]. rewrite D. discriminate. Qed.
Lemma silent_ctrlc : silent (check_ctrlc o).
Proof.
  intros w. unfold check_ctrlc. destruct (w_ctrlc w || o_ctrlc o (w_trace w)); cbn [fst]; (eapply quiet_trans; [|apply quiet_log; [calm|discriminate]]); apply quiet_same; reflexivity.
Qed.
Lemma silent_progress mm n : silent (update_progress o mm n).
Proof.
  apply silent_bind; [destruct mm; [apply silent_warn; [calm|reflexivity]|apply silent_ret]|]. intros _ w. apply quiet_same; reflexivity.
Qed.
Lemma silent_insert r : silent (db_insert o r).
Proof.
  intros w. unfold db_insert. destruct (w_db w) as [rows|]; [|apply quiet_refl]. destruct (existsb _ rows); [apply quiet_refl|]. destruct (o_db_ok o (w_trace w)); [|apply quiet_refl].
  cbn [fst]. eapply quiet_trans; [|apply quiet_log; [calm|discriminate]]. apply quiet_same; reflexivity.
Qed.
Lemma silent_text s : silent (source_text_m contents s).
Proof. unfold source_text_m. destruct (source_text (contents (sp_path s)) s); [apply silent_ret|apply silent_fail|apply silent_panic]. Qed.
Lemma silent_skip spans : silent (skip_present contents o spans).
Proof.
  induction spans as [|c spans IH]; cbn [skip_present]; [apply silent_ret|]. apply silent_bind.
  - intros w. destruct (w_db w); [|apply quiet_refl]. apply (silent_bind (source_text_m contents (c_span c))); [apply silent_text|intros t; apply silent_insert].
  - intros _. apply silent_bind; [exact IH|intros n; apply silent_ret].
Qed.
Lemma silent_test ex s t : silent (run_test hash16 o ex s t).
Proof.
  intros w. unfold run_test. set (w1 := log (EExec s t (w_fs w)) w).
  assert (Q1 : quiet w w1) by (apply quiet_log; [calm|intros f E; injection E as <-; reflexivity]).
  assert (Q2 : quiet w (log (ERun s t (span_id hash16 s) (w_fs w1)) w1)) by (eapply quiet_trans; [exact Q1|]; apply quiet_log; [calm|intros f E; injection E as <-; reflexivity]).
  destruct (o_exec o (w_trace w1) t s) as [[u|]|u|]; [|destruct ex; exact Q1|exact Q1|exact Q1].
  destruct (o_perform o _ t s) as [[| | |]|u1|]; exact Q2.
Qed.
Lemma silent_fold ex s tests : forall acc, silent (fold_tests hash16 o ex s acc tests).
Proof.
  induction tests as [|t tests IH]; intros acc; cbn [fold_tests]; [apply silent_ret|]. apply silent_bind; [|exact IH]. destruct acc as [[]|]; try apply silent_ret. apply silent_test.
Qed.
Lemma silent_candidate ex c t : silent (test_candidate hash16 o ex c t).
Proof.
  unfold test_candidate. apply silent_bind; [apply silent_fold|]. intros out. apply silent_bind; [apply silent_ctrlc|]. intros _. apply silent_bind; [|intros _; apply silent_progress].
  destruct out; [|apply silent_ret]. unfold emit. apply silent_bind; [apply silent_insert|]. intros _ w. apply quiet_log; [calm|discriminate].
Qed.

(** The invariant between candidates. *)
Definition steady (w : world) : Prop :=
  sound w /\ match w_ib w with None => live (w_trace w) = None | Some b => live (w_trace w) = Some (fst b) /\ snd b = fs0 (fst b) end.
Lemma steady_quiet w w' : quiet w w' -> steady w -> steady w'.
Proof. intros (A & B & C & D) [S1 S2]. split; [apply C, S1|]. rewrite B, D. exact S2. Qed.
Definition keeps {A} (m : M A) : Prop := forall w, steady w -> steady (fst (m w)).
Lemma keeps_silent {A} (m : M A) : silent m -> keeps m.
Proof. intros H w. apply steady_quiet, H. Qed.
Lemma keeps_bind {A B} (m : M A) (f : A -> M B) : keeps m -> (forall a, keeps (f a)) -> keeps (mbind m f).
Proof. intros H K w S0. unfold mbind. specialize (H w S0). destruct (m w) as [w' [a|e|]]; cbn [fst] in *; [|exact H|exact H]. apply K, H. Qed.

(** A backup is live, but it is not that of the instrumentation. *)
Definition held (p : path) (w : world) : Prop := sound w /\ w_ib w = None /\ live (w_trace w) = Some p.
Lemma held_quiet p w w' : quiet w w' -> held p w -> held p w'.
Proof. intros (A & B & C & D) (S1 & S2 & S3). split; [apply C, S1|]. rewrite B, D. auto. Qed.
Lemma restore_sound p w : sound w -> live (w_trace w) = Some p -> sound (restore (p, fs0 p) w) /\ live (w_trace (restore (p, fs0 p) w)) = None.
Proof.
  intros (W & T & c & D) L. split; [|reflexivity]. pose proof (wf_disk _ _ _ _ D W) as F. rewrite L in F. destruct F as (_ & F & _). unfold sound. cbn [restore log set_fs w_trace w_fs fst snd wf true_disks].
  split; [split; assumption|]. split; [split; [exact T|discriminate]|]. eexists. apply da_restore; [exact D|exact F].
Qed.
Lemma held_restore p w : held p w -> steady (restore (p, fs0 p) w).
Proof. intros (S1 & S2 & S3). destruct (restore_sound p w S1 S3) as [R1 R2]. split; [exact R1|]. cbn [restore log set_fs w_ib]. rewrite S2. exact R2. Qed.
Lemma held_write p t w : held p w -> held p (fst (write_file o p t w)).
Proof.
  intros ((W & T & c & D) & S2 & S3). unfold write_file. destruct (o_write o (w_trace w) p) as [junk|]; cbn [fst]; (split; [|split; [exact S2|exact S3]]); unfold sound; cbn [log set_fs w_trace w_fs wf true_disks];
    (split; [split; assumption|]); (split; [split; [exact T|discriminate]|]); eexists; apply da_write; exact D.
Qed.
Lemma backup_held p w : steady w -> w_ib w = None -> match backup_new o p w with (w', Ok b) => held p w' /\ b = (p, fs0 p) | (w', _) => steady w' end.
Proof.
  intros [(W & T & c & D) L] I. rewrite I in L. unfold backup_new. destruct (o_backup_ok o (w_trace w) p); [|split; [split; [exact W|split; [exact T|exists c; exact D]]|rewrite I; exact L]].
  pose proof (wf_disk _ _ _ _ D W) as F. rewrite L in F. destruct F as [F _]. split; [|rewrite F; reflexivity]. unfold held, sound. cbn [log w_trace w_fs w_ib wf true_disks live].
  split; [|auto]. split; [auto|]. split; [split; [exact T|discriminate]|]. eexists. apply da_backup. exact D.
Qed.
Lemma keeps_removal {A} s (k : M A) w : silent k -> steady w -> w_ib w = None -> steady (fst (with_removal contents o s k w)).
Proof.
  intros K S0 I. unfold with_removal. pose proof (backup_held (sp_path s) w S0 I) as B. destruct (backup_new o (sp_path s) w) as [w1 [b|e|]]; [|exact B|exact B].
  destruct B as [H ->]. unfold finally. destruct (remove_text (contents (sp_path s)) s) as [[x t]|].
  - unfold mbind. pose proof (held_write (sp_path s) t w1 H) as H2. destruct (write_file o (sp_path s) t w1) as [w2 [u|e|]]; cbn [fst] in *; [|apply held_restore, H2|apply held_restore, H2].
    specialize (K w2). destruct (k w2) as [w3 r]. cbn [fst] in *. apply held_restore. eapply held_quiet; [exact K|exact H2].
  - cbn. apply held_restore, H.
Qed.
Lemma steady_drop w : steady w -> steady (drop_ib w) /\ w_ib (drop_ib w) = None.
Proof.
  intros [S1 S2]. unfold drop_ib. destruct (w_ib w) as [[p t]|] eqn:I.
  - cbn [fst snd] in S2. destruct S2 as [L ->]. destruct (restore_sound p w S1 L) as [R1 R2]. split; [|reflexivity]. split; [exact R1|]. exact R2.
  - split; [split; [exact S1|rewrite I; exact S2]|exact I].
Qed.
Lemma keeps_candidate c : keeps (one_candidate hash16 contents o c).
Proof.
  intros w S0. unfold one_candidate, mbind. cbn [fst].
  set (w1 := match c_kind c with Statement => w | MethodCall => drop_ib w end).
  assert (S1 : steady w1 /\ (c_kind c = MethodCall -> w_ib w1 = None)).
  { unfold w1. destruct (c_kind c); [split; [exact S0|discriminate]|]. destruct (steady_drop w S0) as [A B]. auto. }
  destruct S1 as [S1 I1]. pose proof (silent_text (c_span c) w1) as Q. destruct (source_text_m contents (c_span c) w1) as [w2 [t|e|]]; cbn [fst] in Q |- *;
    [|eapply steady_quiet; [exact Q|exact S1]|eapply steady_quiet; [exact Q|exact S1]].
  assert (S2 : steady w2) by (eapply steady_quiet; [exact Q|exact S1]). assert (I2 : w_ib w2 = w_ib w1) by apply Q.
  destruct (w_ib w2) as [b|] eqn:I.
  - destruct (c_kind c); [apply (steady_quiet w2); [apply silent_candidate|exact S2]|]. specialize (I1 eq_refl). congruence.
  - apply keeps_removal; [apply silent_candidate|exact S2|exact I].
Qed.
Lemma keeps_loop fuel : forall spans past, keeps (candidates_loop hash16 contents o fuel spans past).
Proof.
  induction fuel as [|fuel IH]; intros spans past; cbn [candidates_loop]; destruct (skip_past_removals spans past) as [[[mm n] spans'] past'];
    (apply keeps_bind; [apply keeps_silent, silent_progress|]; intros _; destruct spans' as [|c rest]; [apply keeps_silent, silent_ret|]; apply keeps_bind; [apply keeps_candidate|]; intros _).
  - apply keeps_silent, silent_ret.
  - apply IH.
Qed.
Lemma keeps_instrument p spans w : steady w -> w_ib w = None -> steady (fst (instrument_statements contents o p spans w)).
Proof.
  intros S0 I. unfold instrument_statements. pose proof (backup_held p w S0 I) as B. destruct (backup_new o p w) as [w1 [b|e|]]; [|exact B|exact B]. destruct B as [H ->].
  assert (H2 : held p (fst (instrument_and_write contents o p spans w1))).
  { unfold instrument_and_write, mbind. destruct (o_extra o (w_trace w1) p (length (take_statements spans))) as [ex|e|]; cbn [M_Run.lift fst]; [|exact H|exact H].
    destruct (guards_ok o (take_statements spans)) as [u|e|]; cbn [M_Run.lift fst]; [|exact H|exact H].
    destruct (instrument _ _ _ _ _ _) as [t|]; [apply held_write, H|exact H]. }
  unfold mbind at 1. destruct (instrument_and_write contents o p spans w1) as [w2 [u|e|]]; cbn [fst] in H2 |- *; [|apply held_restore, H2|apply held_restore, H2].
  assert (H3 : held p (log (EBuild p (w_fs w2)) w2)) by (eapply held_quiet; [apply quiet_log; [calm|intros f E; injection E as <-; reflexivity]|exact H2]).
  destruct (o_build o (w_trace w2) p) as [[]|u2|].
  - cbn [fst]. destruct H3 as (A & B & C). split; [exact A|]. cbn [set_ib w_ib]. split; [exact C|reflexivity].
  - pose proof (silent_warn InstrumentationNonbuildable (EWarn InstrumentationNonbuildable) ltac:(calm) eq_refl (log (EBuild p (w_fs w2)) w2)) as Q.
    destruct (warn o InstrumentationNonbuildable (EWarn InstrumentationNonbuildable) (log (EBuild p (w_fs w2)) w2)) as [w3 [u3|e|]]; cbn [fst] in *; apply held_restore; eapply held_quiet; eassumption.
  - cbn [fst]. apply held_restore, H3.
Qed.
(** Between files no backup is live. *)
Definition idle (w : world) : Prop := steady w /\ w_ib w = None.
Lemma idle_quiet w w' : quiet w w' -> idle w -> idle w'.
Proof. intros Q [A B]. split; [eapply steady_quiet; eassumption|]. destruct Q as (_ & Q & _). congruence. Qed.
Lemma idle_bind {A B} (m : M A) (f : A -> M B) w : idle (fst (m w)) -> (forall a w, idle w -> idle (fst (f a w))) -> idle (fst (mbind m f w)).
Proof. intros H K. unfold mbind. destruct (m w) as [w' [a|e|]]; cbn [fst] in *; [apply K, H|exact H|exact H]. Qed.
Lemma idle_file p maps past w : idle w -> idle (fst (one_file hash16 contents o p maps past w)).
Proof.
  intros I. unfold one_file. destruct (skip_past_removals (stm_iter maps) past) as [[[mm n] spans] past'].
  apply idle_bind; [eapply idle_quiet; [apply silent_progress|exact I]|]. clear I w. intros _ w I. destruct spans as [|c spans]; [exact I|].
  apply idle_bind; [eapply idle_quiet; [|exact I]; apply quiet_log; [calm|intros f E; injection E as <-; reflexivity]|]. clear I w. intros r w I.
  assert (K : idle (fst (((match r with Err _ => warn o DryRunFailed (EWarn DryRunFailed) | _ => ret tt end) ;; check_ctrlc o ;;
      match r with
      | Err _ => n <- skip_present contents o (c :: spans) ;; update_progress o None n ;; ret past'
      | _ => finally (instrument_statements contents o p (c :: spans) ;; candidates_loop hash16 contents o (length (c :: spans)) (c :: spans) past') drop_ib
      end) w))).
  { apply idle_bind; [eapply idle_quiet; [|exact I]; destruct r; [apply silent_ret|apply silent_warn; [calm|reflexivity]|apply silent_ret]|]. clear I w. intros _ w I.
    apply idle_bind; [eapply idle_quiet; [apply silent_ctrlc|exact I]|]. clear I w. intros _ w I.
    assert (F : idle (fst (finally (instrument_statements contents o p (c :: spans) ;; candidates_loop hash16 contents o (length (c :: spans)) (c :: spans) past') drop_ib w))).
    { unfold finally. assert (S2 : steady (fst ((instrument_statements contents o p (c :: spans) ;; candidates_loop hash16 contents o (length (c :: spans)) (c :: spans) past') w))).
      { destruct I as [I1 I2]. pose proof (keeps_instrument p (c :: spans) w I1 I2) as H. unfold mbind. destruct (instrument_statements contents o p (c :: spans) w) as [w1 [b|e|]]; cbn [fst] in *; [|exact H|exact H].
        apply keeps_loop, H. }
      destruct ((instrument_statements contents o p (c :: spans) ;; candidates_loop hash16 contents o (length (c :: spans)) (c :: spans) past') w) as [w1 r1]. cbn [fst] in *. apply steady_drop, S2. }
    destruct r; [exact F| |exact F]. apply idle_bind; [eapply idle_quiet; [apply silent_skip|exact I]|]. clear I w F. intros k w I.
    eapply idle_quiet; [|exact I]. apply silent_bind; [apply silent_progress|intros _; apply silent_ret]. }
  destruct r; [exact K|exact K|exact I].
Qed.
Lemma idle_run files : forall past w, idle w -> idle (fst (run hash16 contents o files past w)).
Proof.
  induction files as [|[p maps] files IH]; intros past w I; cbn [run]; [exact I|]. apply idle_bind; [apply idle_file, I|]. intros past' w' I'. apply IH, I'.
Qed.
End Inv.

Lemma start_idle fs db : idle fs (start fs db).
Proof. split; [|reflexivity]. split; [|reflexivity]. split; [exact I|]. split; [exact I|]. exists (fun _ => None). constructor. Qed.

(** Wherever the run dies: at most one source file is not as it was, and a copy of what it was exists. *)
Theorem C72_recoverable : forall hash16 contents o files fs db w r, run_from hash16 contents o files fs db = (w, r) ->
  forall f saved, dies fs (w_trace w) f saved ->
  (forall q, f q = fs q \/ saved q = Some (fs q)) /\ (forall q q', f q <> fs q -> f q' <> fs q' -> q = q').
Proof.
  intros hash16 contents o files fs db w r H f saved D. pose proof (idle_run hash16 contents o fs files (past_of db) (start fs db) (start_idle fs db)) as [[(W & _) _] _].
  unfold run_from in H. rewrite H in W. cbn [fst] in W.
  assert (One : forall p g c, (forall q, q <> p -> g q = fs q) -> c p = Some (fs p) -> forall junk,
     (forall q, put_file p junk g q = fs q \/ c q = Some (fs q)) /\ (forall q q', put_file p junk g q <> fs q -> put_file p junk g q' <> fs q' -> q = q')).
  { intros p g c A B junk. assert (Z : forall q, q <> p -> put_file p junk g q = fs q).
    { intros q N. unfold put_file. destruct (path_eqb p q) eqn:Q; [apply path_eqb_eq in Q; congruence|apply A, N]. }
    split.
    - intros q. destruct (path_eqb q p) eqn:Q; [apply path_eqb_eq in Q; subst q; right; exact B|left; apply Z, path_eqb_neq, Q].
    - intros q q' N N'. destruct (path_eqb q p) eqn:Q; [|destruct N; apply Z, path_eqb_neq, Q]. destruct (path_eqb q' p) eqn:Q'; [|destruct N'; apply Z, path_eqb_neq, Q'].
      apply path_eqb_eq in Q, Q'. congruence. }
  destruct D as [tr f c Mo Da|p tr f c junk Mo Da|p tr f c junk Mo Da].
  - pose proof (wf_disk _ _ _ _ Da (wf_moment _ _ Mo W)) as F. destruct (live tr) as [p|].
    + destruct F as (F1 & F2 & _). assert (Same : forall q, put_file p (f p) f q = f q) by (intros q; unfold put_file; destruct (path_eqb p q) eqn:Q; [apply path_eqb_eq in Q; subst; reflexivity|reflexivity]).
      destruct (One p f c F1 F2 (f p)) as [A B]. split; [intros q; destruct (A q) as [Aq|Aq]; [left; rewrite <- Aq; symmetry; apply Same|right; exact Aq]|]. intros q q' N N'. apply B; rewrite Same; assumption.
    + destruct F as [F _]. split; [auto|]. intros q q' N. destruct N. apply F.
  - pose proof (wf_moment _ _ Mo W) as [W2 L]. pose proof (wf_disk _ _ _ _ Da W2) as F. rewrite L in F. destruct F as (F1 & F2 & _). apply One; assumption.
  - pose proof (wf_moment _ _ Mo W) as [W2 L]. pose proof (wf_disk _ _ _ _ Da W2) as F. rewrite L in F. destruct F as (F1 & F2 & _). apply One; assumption.
Qed.
Print Assumptions C72_recoverable.

(** The disks that the events tell of, and the disk at the end, are among those that may be there. *)
Theorem C72_disks : forall hash16 contents o files fs db w r, run_from hash16 contents o files fs db = (w, r) ->
  (exists saved, disk_after fs (w_trace w) (w_fs w) saved /\ forall q, saved q = None) /\
  forall e tr f, moment (e :: tr) (w_trace w) -> disk_of e = Some f -> exists saved, disk_after fs tr f saved.
Proof.
  intros hash16 contents o files fs db w r H. pose proof (idle_run hash16 contents o fs files (past_of db) (start fs db) (start_idle fs db)) as [[(W & T & c & D) L] I].
  unfold run_from in H. rewrite H in W, T, D, L, I. cbn [fst] in *. rewrite I in L. split.
  - exists c. split; [exact D|]. pose proof (wf_disk _ _ _ _ D W) as F. rewrite L in F. apply F.
  - intros e tr f (l & E) Hd. rewrite E in T. clear - T Hd. induction l as [|x l IH]; cbn [app true_disks] in T; [apply T, Hd|]. apply IH, T.
Qed.
Print Assumptions C72_disks.

(** C06 without any assumption on the candidates. *)
Theorem C06_restored_always : forall hash16 contents o files fs db p, w_fs (fst (run_from hash16 contents o files fs db)) p = fs p.
Proof.
  intros hash16 contents o files fs db p. destruct (run_from hash16 contents o files fs db) as [w r] eqn:H. cbn [fst].
  pose proof (idle_run hash16 contents o fs files (past_of db) (start fs db) (start_idle fs db)) as [[(W & T & c & D) L] I].
  unfold run_from in H. rewrite H in W, T, D, L, I. cbn [fst] in *. rewrite I in L. pose proof (wf_disk _ _ _ _ D W) as F. rewrite L in F. apply F.
Qed.
Print Assumptions C06_restored_always.

(** The latest build in a trace. *)
Fixpoint split_build (tr : trace) : option (trace * path * (path -> text) * trace) :=
  match tr with
  | [] => None
  | EBuild p f :: r => Some ([], p, f, r)
  | e :: r => match split_build r with Some (l, p, f, x) => Some (e :: l, p, f, x) | None => None end
  end.
Lemma split_build_spec tr : forall l p f x, split_build tr = Some (l, p, f, x) -> tr = l ++ EBuild p f :: x.
Proof.
  induction tr as [|e tr IH]; intros l p f x H; [discriminate|].
  assert (Y : split_build tr = None \/ exists l' p' f' x', split_build tr = Some (l', p', f', x')) by (destruct (split_build tr) as [[[[? ?] ?] ?]|]; [right; do 4 eexists; reflexivity|left; reflexivity]).
  destruct e; cbn [split_build] in H; try (injection H as <- <- <- <-; reflexivity);
    (destruct Y as [Y|(l' & p' & f' & x' & Y)]; rewrite Y in H; [discriminate|]; injection H as <- <- <- <-; cbn [app]; f_equal; apply IH; exact Y).
Qed.
(** What is not so: a killed run leaves the sources as they were. And running again does not repair them: every run ends
    with the disk it began with. *)
Theorem C72_intact_refuted : exists hash16 contents o files fs p,
  project files /\ snd (run_from hash16 contents o files fs (Some [])) = Ok tt /\
  exists f saved, dies fs (w_trace (fst (run_from hash16 contents o files fs (Some [])))) f saved /\ f p <> fs p /\
    forall hash16' contents' o' files' db', w_fs (fst (run_from hash16' contents' o' files' f db')) p <> fs p.
Proof.
  exists ex_hash, ex_disk, ex_o, ex_files, ex_disk, ex_path. split; [exact ex_project|]. split; [vm_compute; reflexivity|].
  destruct (run_from ex_hash ex_disk ex_o ex_files ex_disk (Some [])) as [w r] eqn:R. destruct (C72_disks _ _ _ _ _ _ _ _ R) as [_ D].
  assert (X : match split_build (w_trace (fst (run_from ex_hash ex_disk ex_o ex_files ex_disk (Some [])))) with Some (_, _, f, _) => text_eqb (f ex_path) (ex_disk ex_path) = false | None => False end) by (vm_compute; reflexivity).
  rewrite R in X. cbn [fst] in *. destruct (split_build (w_trace w)) as [[[[l p] f] tr]|] eqn:B; [|destruct X]. apply split_build_spec in B.
  assert (Mo : moment (EBuild p f :: tr) (w_trace w)) by (exists l; exact B). destruct (D _ _ f Mo eq_refl) as (saved & Da).
  assert (N : f ex_path <> ex_disk ex_path) by (intros Q; rewrite Q, text_eqb_refl in X; discriminate). exists f, saved. split; [|split; [exact N|]].
  - apply di_between with (tr := tr); [|exact Da]. destruct Mo as (k & ->). exists (k ++ [EBuild p f]). rewrite <- app_assoc. reflexivity.
  - intros. rewrite C06_restored_always. exact N.
Qed.
Print Assumptions C72_intact_refuted.
Example C72_nonvacuous : exists f saved, dies ex_disk (w_trace (fst (run_from ex_hash ex_disk ex_o ex_files ex_disk (Some [])))) f saved /\ f ex_path <> ex_disk ex_path /\ saved ex_path = Some (ex_disk ex_path).
Proof.
  destruct (run_from ex_hash ex_disk ex_o ex_files ex_disk (Some [])) as [w r] eqn:R. destruct (C72_disks _ _ _ _ _ _ _ _ R) as [_ D].
  assert (X : match split_build (w_trace (fst (run_from ex_hash ex_disk ex_o ex_files ex_disk (Some [])))) with Some (_, _, f, _) => text_eqb (f ex_path) (ex_disk ex_path) = false | None => False end) by (vm_compute; reflexivity).
  rewrite R in X. cbn [fst] in *. destruct (split_build (w_trace w)) as [[[[l p] f] tr]|] eqn:B; [|destruct X]. apply split_build_spec in B.
  assert (Mo : moment (EBuild p f :: tr) (w_trace w)) by (exists l; exact B). destruct (D _ _ f Mo eq_refl) as (saved & Da).
  assert (N : f ex_path <> ex_disk ex_path) by (intros Q; rewrite Q, text_eqb_refl in X; discriminate).
  assert (Di : dies ex_disk (w_trace w) f saved).
  { apply di_between with (tr := tr); [|exact Da]. destruct Mo as (k & ->). exists (k ++ [EBuild p f]). rewrite <- app_assoc. reflexivity. }
  exists f, saved. split; [exact Di|]. split; [exact N|]. destruct (C72_recoverable _ _ _ _ _ _ _ _ R f saved Di) as [A _]. destruct (A ex_path) as [A'|A']; [destruct (N A')|exact A'].
Qed.
