(** Lemmas about the run loop: one invariant of histories, kept by every function of the
    model on every way out. *)
From Verif Require Import Base M_Text S_Text L_Text M_Rewriter M_Span S_Span L_Span M_Instr S_Instr L_Instr M_Run S_Run.

Lemma path_eqb_eq a b : path_eqb a b = true <-> a = b.
Proof. unfold path_eqb. destruct (list_eq_dec (list_eq_dec N.eq_dec) a b); split; congruence. Qed.
Lemma path_eqb_neq a b : path_eqb a b = false <-> a <> b.
Proof. unfold path_eqb. destruct (list_eq_dec (list_eq_dec N.eq_dec) a b); split; congruence. Qed.
Lemma path_eqb_refl a : path_eqb a a = true.
Proof. now apply path_eqb_eq. Qed.

(** ** Subsequences, moments *)

Lemma subseq_refl {A} (l : list A) : subseq l l.
Proof. induction l; constructor; assumption. Qed.

Lemma subseq_app {A} (a b a' b' : list A) : subseq a a' -> subseq b b' -> subseq (a ++ b) (a' ++ b').
Proof.
  intros H K. induction H; cbn.
  - induction l; cbn; [exact K|]. now constructor.
  - now constructor.
  - now constructor.
Qed.

Lemma subseq_in {A} (a b : list A) x : subseq a b -> In x a -> In x b.
Proof. intros H. induction H; cbn; [intros []| |]; intuition. Qed.

Lemma subseq_nodup {A} (a b : list A) : subseq a b -> NoDup b -> NoDup a.
Proof.
  intros H. induction H; intros N; [constructor| |].
  - inversion N; subst. constructor; [|auto]. intros Hi. eapply subseq_in in Hi; [|eassumption]. auto.
  - inversion N; auto.
Qed.

Lemma subseq_app_l {A} (a b : list A) : subseq a (a ++ b).
Proof. induction a; cbn; constructor; assumption. Qed.
Lemma subseq_app_r {A} (a b : list A) : subseq b (a ++ b).
Proof. induction a; cbn; [apply subseq_refl|constructor; assumption]. Qed.

Lemma subseq_trans {A} (a b c : list A) : subseq a b -> subseq b c -> subseq a c.
Proof.
  intros H K. revert a H. induction K; intros a H.
  - inversion H; subst. constructor.
  - inversion H; subst; [constructor|constructor; auto|constructor; auto].
  - constructor. auto.
Qed.

Lemma subseq_map {A B} (f : A -> B) a b : subseq a b -> subseq (map f a) (map f b).
Proof. intros H. induction H; cbn; constructor; auto. Qed.

Lemma nodup_app_disjoint {A} (a b : list A) x : NoDup (a ++ b) -> In x a -> In x b -> False.
Proof.
  induction a as [|y a IH]; intros N Ha Hb; [destruct Ha|]. cbn in N. inversion N; subst.
  destruct Ha as [->|Ha]; [|now apply IH]. apply H1. apply in_or_app. now right.
Qed.

Lemma moment_refl t : moment t t. Proof. exists []. reflexivity. Qed.
Lemma moment_trans a b c : moment a b -> moment b c -> moment a c.
Proof. intros [x ->] [y ->]. exists (y ++ x). now rewrite app_assoc. Qed.
Lemma moment_cons e t : moment t (e :: t). Proof. exists [e]. reflexivity. Qed.
Lemma moment_in e a b : moment a b -> In e a -> In e b.
Proof. intros [x ->] H. apply in_or_app; now right. Qed.

Lemma option_outcome_passed (x : option outcome) : x = Some Passed \/ x <> Some Passed.
Proof. destruct x as [[]|]; ((left; reflexivity) || (right; discriminate)). Qed.

Section Inv.
Context (hash16 : text -> text) (contents : path -> text) (o : oracle).
Context (files : list (path * span_test_maps)) (fs0 : path -> text) (usedb : bool)
  (W : mismatch -> Prop) (DBF : Prop).
Hypothesis H_dbf : forall tr, o_db_ok o tr = false -> DBF.

Lemma ran_with_mono a b s t x : moment a b -> ran_with o a s t x -> ran_with o b s t x.
Proof. intros M (env & fs & bf & H & K). exists env, fs, bf. split; [eapply moment_trans; eassumption|exact K]. Qed.
Lemma did_not_build_mono a b s t : moment a b -> did_not_build o a s t -> did_not_build o b s t.
Proof. intros M (fs & bf & H & K). exists fs, bf. split; [eapply moment_trans; eassumption|exact K]. Qed.
Lemma dry_run_failed_mono a b p : moment a b -> dry_run_failed o a p -> dry_run_failed o b p.
Proof. intros M (fs & bf & u & H & K). exists fs, bf, u. split; [eapply moment_trans; eassumption|exact K]. Qed.
Lemma dry_run_ok_mono a b p : moment a b -> dry_run_ok o a p -> dry_run_ok o b p.
Proof. intros M (fs & bf & H & K). exists fs, bf. split; [eapply moment_trans; eassumption|exact K]. Qed.
Lemma justified_mono a b s ts x : moment a b -> justified o a s ts x -> justified o b s ts x.
Proof.
  intros M. destruct x; cbn.
  - now apply dry_run_failed_mono.
  - intros (u & t & v & E & H & K). exists u, t, v. split; [exact E|]. split.
    + intros; eapply ran_with_mono; eauto.
    + eapply did_not_build_mono; eauto.
  - intros (u & t & v & E & H & K). exists u, t, v. split; [exact E|]. split.
    + intros; eapply ran_with_mono; eauto.
    + eapply ran_with_mono; eauto.
  - intros (u & t & v & E & H & K). exists u, t, v. split; [exact E|]. split.
    + intros; eapply ran_with_mono; eauto.
    + eapply ran_with_mono; eauto.
  - intros H t Ht. eapply ran_with_mono; eauto.
Qed.

(** A candidate of some file. *)
Definition is_cand (m : span_test_maps) (c : cand) : Prop :=
  In (sp_path (c_span c), m) files /\ In c (stm_iter m).

(** Test [t] of candidate [s] may be built and run on the disk [fs]: [s] and nothing else is
    removed, and the tests of [s] that come before [t] have passed. *)
Definition removed_for (now : trace) (fs : path -> text) (s : span) (t : text) : Prop :=
  exists m c a b, is_cand m c /\ c_span c = s /\ c_tests c = a ++ t :: b /\
              (forall t', In t' a -> ran_with o now s t' XPassed) /\ dry_run_ok o now (sp_path s) /\
              only_removed contents o fs0 fs (map fst (stm_statement m)) s.

Lemma removed_for_mono x y fs s t : moment x y -> removed_for x fs s t -> removed_for y fs s t.
Proof.
  intros M (m & c & a & b & H1 & H2 & H3 & H4 & H6 & H5). exists m, c, a, b.
  split; [exact H1|]. split; [exact H2|]. split; [exact H3|].
  split; [intros t' Ht; eapply ran_with_mono; eauto|]. split; [eapply dry_run_ok_mono; eassumption|exact H5].
Qed.

Definition recorded (now : trace) (r : removal) : Prop :=
  exists m c, is_cand m c /\ c_span c = rm_span r /\
    source_text (contents (sp_path (rm_span r))) (rm_span r) = Ok (rm_text r) /\
    justified o now (rm_span r) (c_tests c) (rm_outcome r).

(** What holds of every event, given the history before it. *)
Definition Good (e : event) (pre : trace) : Prop :=
  (~ In ECtrlC pre \/ exists p, e = ERestore p) /\
  match e with
  | ERun s t env fs => env = span_id hash16 s /\
      exists pre', pre = EExec s t fs :: pre' /\ exists u, o_exec o pre t s = Ok (Some u)
  | EExec s t fs => removed_for pre fs s t /\ (forall s', In s' (since_poll pre) -> s' = s)
  | EInsert r => usedb = true /\ recorded pre r /\ (rm_outcome r <> Skipped -> exists pre', pre = EPoll :: pre')
  | EPoll => o_ctrlc o pre = false
  | EConsole r => recorded pre r /\ rm_outcome r <> Skipped /\
                  (usedb = true -> exists pre', pre = EInsert r :: pre')
  | EDryRun p fs => forall q, fs q = fs0 q
  | EBuild p fs => forall q, q <> p -> fs q = fs0 q
  | EWarnChanged m => W m
  | _ => True
  end.

Fixpoint AllGood (tr : trace) : Prop :=
  match tr with
  | [] => True
  | e :: pre => Good e pre /\ AllGood pre
  end.

Definition okres {A} (r : res run_error A) (tr : trace) : Prop :=
  match r with
  | Err CtrlC => In ECtrlC tr
  | Err DbFailed => ~ In ECtrlC tr /\ DBF
  | _ => ~ In ECtrlC tr
  end.

Definition plain {A} (r : res run_error A) : Prop := r <> Err CtrlC /\ r <> Err DbFailed.

Lemma plain_ok {A} (r : res run_error A) tr : plain r -> ~ In ECtrlC tr -> okres r tr.
Proof. intros [P Q] N. destruct r as [a|e|]; auto. destruct e; auto; congruence. Qed.
Lemma plain_err {A B} e : @plain A (Err e) -> @plain B (Err e).
Proof. intros [P Q]. split; congruence. Qed.
Lemma okres_err {A B} e tr : okres (A := A) (Err e) tr -> okres (A := B) (Err e) tr.
Proof. destruct e; auto. Qed.

(** From [w] to [w'] the tests [R] were run and the rows [I] inserted. *)
Record Step (w w' : world) (R : list (span * text)) (I : list removal) : Prop := {
  st_mom : moment (w_trace w) (w_trace w');
  st_runs : runs (w_trace w') = runs (w_trace w) ++ R;
  st_ins : inserts (w_trace w') = inserts (w_trace w) ++ I;
  st_db : w_db w' = option_map (fun rows => rows ++ I) (w_db w);
  st_nodb : w_db w = None -> I = [];
  st_good : AllGood (w_trace w')
}.

Lemma Step_refl w : AllGood (w_trace w) -> Step w w [] [].
Proof.
  intros H. constructor; rewrite ?app_nil_r; auto using moment_refl.
  destruct (w_db w); cbn; rewrite ?app_nil_r; reflexivity.
Qed.

Lemma Step_trans w1 w2 w3 R1 I1 R2 I2 :
  Step w1 w2 R1 I1 -> Step w2 w3 R2 I2 -> Step w1 w3 (R1 ++ R2) (I1 ++ I2).
Proof.
  intros [A1 A2 A3 A4 A5 A6] [B1 B2 B3 B4 B5 B6]. constructor.
  - eapply moment_trans; eassumption.
  - rewrite B2, A2. now rewrite app_assoc.
  - rewrite B3, A3. now rewrite app_assoc.
  - rewrite B4, A4. destruct (w_db w1); cbn; [|reflexivity]. now rewrite app_assoc.
  - intros N. rewrite (A5 N). rewrite A4, N in B5. cbn in B5. rewrite (B5 eq_refl). reflexivity.
  - exact B6.
Qed.

Lemma runs_cons e tr : runs (e :: tr) = runs tr ++ run_of e.
Proof. unfold runs. cbn [rev]. rewrite flat_map_app. cbn. now rewrite app_nil_r. Qed.
Lemma inserts_cons e tr : inserts (e :: tr) = inserts tr ++ insert_of e.
Proof. unfold inserts. cbn [rev]. rewrite flat_map_app. cbn. now rewrite app_nil_r. Qed.

Lemma since_runs later : forall tr, runs (later ++ tr) = runs tr -> forall x, In x (since_poll (later ++ tr)) -> In x (since_poll tr).
Proof.
  induction later as [|e later IH]; intros tr E x Hx; [exact Hx|].
  cbn [app] in E. rewrite runs_cons in E.
  assert (L : forall l, length (runs (l ++ tr)) >= length (runs tr)).
  { induction l as [|e' l IHl]; cbn [app]; [lia|]. rewrite runs_cons, app_length. lia. }
  pose proof (L later) as L1. assert (EL := f_equal (@length _) E). rewrite app_length in EL.
  destruct e; cbn in E, EL, Hx; rewrite ?app_nil_r in E; try (apply IH; assumption); try lia; contradiction.
Qed.
Lemma Step_since w w' I x : Step w w' [] I -> In x (since_poll (w_trace w')) -> In x (since_poll (w_trace w)).
Proof.
  intros S H. destruct (st_mom _ _ _ _ S) as (later & E). pose proof (st_runs _ _ _ _ S) as R.
  rewrite app_nil_r in R. rewrite E in *. eapply since_runs; eassumption.
Qed.
Lemma Step_since_nil w w' I : Step w w' [] I -> since_poll (w_trace w) = [] -> since_poll (w_trace w') = [].
Proof.
  intros S H. destruct (since_poll (w_trace w')) as [|x l] eqn:E; [reflexivity|].
  assert (X : In x (since_poll (w_trace w'))) by (rewrite E; now left).
  apply (Step_since _ _ _ _ S) in X. rewrite H in X. destruct X.
Qed.

(** One event that is not an insertion. *)
Lemma Step_log w w' e R : w_trace w' = e :: w_trace w -> w_db w' = w_db w -> insert_of e = [] ->
  run_of e = R -> AllGood (w_trace w) -> Good e (w_trace w) -> Step w w' R [].
Proof.
  intros T D I <- G E. constructor; rewrite ?T.
  - apply moment_cons.
  - apply runs_cons.
  - rewrite inserts_cons, I. reflexivity.
  - rewrite D. destruct (w_db w); cbn; now rewrite ?app_nil_r.
  - reflexivity.
  - split; assumption.
Qed.

(** No event. *)
Lemma Step_same w w' : w_trace w' = w_trace w -> w_db w' = w_db w -> AllGood (w_trace w) -> Step w w' [] [].
Proof.
  intros T D G. constructor; rewrite ?T, ?app_nil_r; auto using moment_refl.
  rewrite D. destruct (w_db w); cbn; now rewrite ?app_nil_r.
Qed.

Lemma good_restore w b : AllGood (w_trace w) -> Step w (restore b w) [] [].
Proof.
  intros G. eapply Step_log with (e := ERestore (fst b)); try reflexivity; auto.
  split; [right; eauto|exact I].
Qed.

Lemma okres_restore {A} (r : res run_error A) w b : okres r (w_trace w) -> okres r (w_trace (restore b w)).
Proof.
  destruct r as [a|e|]; cbn.
  - intros H [C|C]; [discriminate|auto].
  - destruct e; cbn; try (intros H [C|C]; [discriminate|auto]).
    + intros H; now right.
    + intros [H D]. split; [intros [C|C]; [discriminate|auto]|exact D].
  - intros H [C|C]; [discriminate|auto].
Qed.

(** ** Small functions *)

Lemma warn_spec rw e w : ~ In ECtrlC (w_trace w) -> AllGood (w_trace w) ->
  (match e with EWarn _ => True | EWarnChanged m => W m | _ => False end) ->
  let '(w', r) := warn o rw e w in
  Step w w' [] [] /\ okres r (w_trace w') /\ w_fs w' = w_fs w /\ w_ib w' = w_ib w /\ w_progress w' = w_progress w.
Proof.
  intros N G E. unfold warn, mbind, emit_event. cbn.
  assert (S : Step w (log e w) [] []).
  { destruct e; try contradiction; (eapply Step_log; [reflexivity|reflexivity|reflexivity|reflexivity|exact G|split; [now left|exact E]]). }
  assert (N' : ~ In ECtrlC (w_trace (log e w))).
  { cbn. intros [C|C]; [subst e; contradiction|auto]. }
  destruct (o_denied o rw); cbn; auto.
Qed.

Lemma update_progress_spec mm n w : ~ In ECtrlC (w_trace w) -> AllGood (w_trace w) ->
  (forall m, mm = Some m -> W m) ->
  let '(w', r) := update_progress o mm n w in
  Step w w' [] [] /\ okres r (w_trace w') /\ w_fs w' = w_fs w /\ w_ib w' = w_ib w /\
  (mm = None -> w_trace w' = w_trace w /\ r = Ok tt).
Proof.
  intros N G HW. unfold update_progress. destruct mm as [m|].
  - unfold mbind. pose proof (warn_spec FilesChanged (EWarnChanged m) w N G (HW m eq_refl)) as H.
    destruct (warn o FilesChanged (EWarnChanged m) w) as [w1 r1].
    destruct H as (S & O & F & B & _). destruct r1 as [u|e|].
    + cbn in O. split; [|split; [exact O|split; [exact F|split; [exact B|discriminate]]]].
      replace (@nil (span * text)) with (@nil (span * text) ++ []) by reflexivity.
      replace (@nil removal) with (@nil removal ++ []) by reflexivity.
      eapply Step_trans; [exact S|]. apply Step_same; [reflexivity|reflexivity|apply (st_good _ _ _ _ S)].
    + repeat split; auto; try discriminate; apply S.
    + repeat split; auto; try discriminate; apply S.
  - cbn. split; [apply Step_same; auto|]. auto.
Qed.

Lemma check_ctrlc_spec w : ~ In ECtrlC (w_trace w) -> AllGood (w_trace w) ->
  let '(w', r) := check_ctrlc o w in
  Step w w' [] [] /\ okres r (w_trace w') /\ w_fs w' = w_fs w /\ w_ib w' = w_ib w /\
  (r = Ok tt -> w_trace w' = EPoll :: w_trace w /\ w_db w' = w_db w) /\ r <> Panic.
Proof.
  intros N G. unfold check_ctrlc. destruct (w_ctrlc w || o_ctrlc o (w_trace w)) eqn:E; cbn.
  - split; [eapply Step_log with (e := ECtrlC); try reflexivity; [exact G|split; [now left|exact I]]|].
    split; [now left|]. repeat split; discriminate.
  - apply orb_false_iff in E as [_ E].
    split; [eapply Step_log with (e := EPoll); try reflexivity; [exact G|split; [now left|exact E]]|].
    split; [intros [C|C]; [discriminate|auto]|]. repeat split; auto; discriminate.
Qed.

Lemma source_text_m_spec s w : 
  let '(w', r) := source_text_m contents s w in
  w' = w /\ (forall t, r = Ok t -> source_text (contents (sp_path s)) s = Ok t) /\ plain r.
Proof.
  unfold source_text_m. destruct (source_text (contents (sp_path s)) s); cbn; repeat split; try discriminate.
  intros ? H. now injection H as ->.
Qed.

(** No row has the key of [s], unless a database failure is excused. *)
Definition fresh (s : span) (w : world) : Prop :=
  DBF \/ forall rows x, w_db w = Some rows -> In x rows -> display_span (rm_span x) <> display_span s.

Lemma fresh_db s w w' : w_db w' = w_db w -> fresh s w -> fresh s w'.
Proof. unfold fresh. now intros ->. Qed.

Lemma db_insert_spec r w : (w_db w = None <-> usedb = false) ->
  ~ In ECtrlC (w_trace w) -> AllGood (w_trace w) ->
  recorded (w_trace w) r -> (rm_outcome r <> Skipped -> exists pre', w_trace w = EPoll :: pre') ->
  fresh (rm_span r) w ->
  let '(w', x) := db_insert o r w in
  okres x (w_trace w') /\ w_fs w' = w_fs w /\ w_ib w' = w_ib w /\
  (x = Ok tt -> (usedb = true /\ Step w w' [] [r] /\ w_trace w' = EInsert r :: w_trace w)
                \/ (usedb = false /\ w' = w)) /\
  (x <> Ok tt -> w' = w).
Proof.
  intros U N G J C FR. unfold db_insert. destruct (w_db w) as [rows|] eqn:D.
  - assert (Ut : usedb = true).
    { destruct usedb; [reflexivity|]. destruct U as [_ U]. specialize (U eq_refl). discriminate. }
    destruct (existsb _ rows) eqn:EX.
    { assert (X : DBF).
      { destruct FR as [FR|FR]; [exact FR|]. apply existsb_exists in EX as (x & X1 & X2).
        apply text_eqb_eq in X2. now apply (FR rows x D) in X2. }
      cbn; repeat split; auto; discriminate. }
    destruct (o_db_ok o (w_trace w)) eqn:OK; [|assert (X : DBF) by (eapply H_dbf; eassumption); cbn; repeat split; auto; discriminate].
    cbn. split; [intros [X|X]; [discriminate|auto]|]. split; [reflexivity|]. split; [reflexivity|].
    split; [|congruence]. intros _. left. split; [exact Ut|]. split; [|reflexivity].
    constructor; cbn [w_trace log set_db w_db].
    + apply moment_cons.
    + rewrite runs_cons. cbn. now rewrite app_nil_r.
    + rewrite inserts_cons. reflexivity.
    + rewrite D. reflexivity.
    + rewrite D. discriminate.
    + split; [|exact G]. split; [now left|]. auto.
  - cbn. repeat split; auto. intros _. right. split; [|reflexivity]. now apply U.
Qed.


(** ** Running the tests of a candidate *)

Definition same_disk (w w' : world) : Prop := w_fs w' = w_fs w /\ w_ib w' = w_ib w.

Definition test_says (tr : trace) (s : span) (t : text) (out : option outcome) : Prop :=
  match out with
  | None => ran_with o tr s t XNone
  | Some Passed => ran_with o tr s t XPassed
  | Some Failed => ran_with o tr s t XFailed
  | Some TimedOut => ran_with o tr s t XTimedOut
  | Some Nonbuildable => did_not_build o tr s t
  | Some Skipped => False
  end.

Lemma run_test_spec ex s t w : ~ In ECtrlC (w_trace w) -> AllGood (w_trace w) -> removed_for (w_trace w) (w_fs w) s t ->
  (forall x, In x (since_poll (w_trace w)) -> x = s) ->
  let '(w', r) := run_test hash16 o ex s t w in
  Step w w' [(s, t)] [] /\
  same_disk w w' /\ w_db w' = w_db w /\ plain r /\ ~ In ECtrlC (w_trace w') /\
  (forall out, r = Ok out -> test_says (w_trace w') s t out) /\
  (r = Ok (Some Nonbuildable) -> ex = true) /\
  (forall x, In x (since_poll (w_trace w')) -> x = s).
Proof.
  intros N G RF SP. unfold run_test.
  set (w1 := log (EExec s t (w_fs w)) w).
  assert (S1 : Step w w1 [(s, t)] []).
  { eapply Step_log with (e := EExec s t (w_fs w)); try reflexivity; [exact G|]. split; [now left|]. split; [exact RF|exact SP]. }
  assert (N1 : ~ In ECtrlC (w_trace w1)) by (cbn; intros [C|C]; [discriminate|auto]).
  assert (SP1 : forall x, In x (since_poll (w_trace w1)) -> x = s) by (cbn; intros x [<-|Hx]; auto).
  assert (DF : forall x, o_exec o (w_trace w1) t s = x -> x = Ok None -> did_not_build o (w_trace w1) s t).
  { intros x E ->. exists (w_fs w), (w_trace w). split; [apply moment_refl|exact E]. }
  destruct (o_exec o (w_trace w1) t s) as [[u|]|e|] eqn:EX.
  - set (w2 := log (ERun s t (span_id hash16 s) (w_fs w1)) w1).
    assert (S2 : Step w w2 [(s, t)] []).
    { change [(s, t)] with ([(s, t)] ++ []). change (@nil removal) with (@nil removal ++ []).
      eapply Step_trans; [exact S1|].
      eapply Step_log with (e := ERun s t (span_id hash16 s) (w_fs w1)); try reflexivity; [apply (st_good _ _ _ _ S1)|].
      split; [now left|]. split; [reflexivity|]. exists (w_trace w). split; [reflexivity|]. exists u. exact EX. }
    assert (N2 : ~ In ECtrlC (w_trace w2)) by (cbn; intros [C|[C|C]]; [discriminate|discriminate|auto]).
    assert (SP2 : forall x, In x (since_poll (w_trace w2)) -> x = s) by exact SP1.
    assert (RW : forall x, o_perform o (w_trace w2) t s = Ok x -> ran_with o (w_trace w2) s t x).
    { intros x E. exists (span_id hash16 s), (w_fs w1), (w_trace w1). split; [apply moment_refl|exact E]. }
    destruct (o_perform o (w_trace w2) t s) as [x|e|] eqn:EP.
    + assert (P : let '(w', r) := (w2, @Ok run_error _ (match x with XNone => None | XPassed => Some Passed | XFailed => Some Failed | XTimedOut => Some TimedOut end)) in
        Step w w' [(s, t)] [] /\
        same_disk w w' /\ w_db w' = w_db w /\ plain r /\ ~ In ECtrlC (w_trace w') /\
        (forall out, r = Ok out -> test_says (w_trace w') s t out) /\ (r = Ok (Some Nonbuildable) -> ex = true) /\ (forall x, In x (since_poll (w_trace w')) -> x = s)).
      { split; [exact S2|]. split; [split; reflexivity|]. split; [reflexivity|].
        split; [split; discriminate|]. split; [exact N2|]. split; [|split; [|exact SP2]].
        - intros out E. injection E as <-. specialize (RW x eq_refl). destruct x; exact RW.
        - destruct x; discriminate. }
      destruct x; exact P.
    + split; [exact S2|]. repeat split; auto; discriminate.
    + split; [exact S2|]. repeat split; auto; discriminate.
  - destruct ex.
    + split; [exact S1|]. split; [split; reflexivity|].
      split; [reflexivity|]. split; [split; discriminate|]. split; [exact N1|]. split; [|auto].
      intros out E. injection E as <-. cbn [test_says]. eapply DF; reflexivity.
    + split; [exact S1|]. repeat split; auto; discriminate.
  - split; [exact S1|]. repeat split; auto; discriminate.
  - split; [exact S1|]. repeat split; auto; discriminate.
Qed.

Lemma fold_tests_stop ex s acc tests w : acc <> Some Passed -> fold_tests hash16 o ex s acc tests w = (w, Ok acc).
Proof.
  intros H. revert w. induction tests as [|t rest IH]; intros w; [reflexivity|].
  cbn [fold_tests]. unfold mbind. destruct acc as [[]|]; try congruence; cbn; apply IH.
Qed.

(** The outcome of a whole candidate, or no outcome because some test could not be judged. *)
Definition says (tr : trace) (s : span) (tests : list text) (out : option outcome) : Prop :=
  match out with
  | None => exists t, In t tests /\ ran_with o tr s t XNone
  | Some x => justified o tr s tests x /\ x <> Skipped
  end.

Lemma fold_tests_spec ex s tests : forall done w,
  ~ In ECtrlC (w_trace w) -> AllGood (w_trace w) -> 
  (forall tr a t b, moment (w_trace w) tr -> done ++ tests = a ++ t :: b -> (forall t', In t' a -> ran_with o tr s t' XPassed) ->
     removed_for tr (w_fs w) s t) ->
  (forall x, In x (since_poll (w_trace w)) -> x = s) ->
  (forall t, In t done -> ran_with o (w_trace w) s t XPassed) ->
  let '(w', r) := fold_tests hash16 o ex s (Some Passed) tests w in
  (exists ts rest, tests = ts ++ rest /\ Step w w' (map (pair s) ts) []) /\
  same_disk w w' /\ w_db w' = w_db w /\ plain r /\ ~ In ECtrlC (w_trace w') /\
  (forall out, r = Ok out -> says (w_trace w') s (done ++ tests) out).
Proof.
  induction tests as [|t rest IH]; intros done w N G RF SP D; cbn [fold_tests].
  - cbn. split; [exists [], []; split; [reflexivity|now apply Step_refl]|].
    repeat split; auto; try discriminate. intros out E. injection E as <-. rewrite app_nil_r.
    split; [exact D|discriminate].
  - unfold mbind. pose proof (run_test_spec ex s t w N G (RF (w_trace w) done t rest (moment_refl _) eq_refl D) SP) as H.
    destruct (run_test hash16 o ex s t w) as [w1 r1].
    destruct H as (S & [F B] & DB & NC & N1 & SAY & _ & SP1).
    assert (STOP : exists ts rest', t :: rest = ts ++ rest' /\ Step w w1 (map (pair s) ts) []).
    { exists [t], rest; split; auto. }
    destruct r1 as [acc|e|].
    + destruct (option_outcome_passed acc) as [->|NP].
      * specialize (IH (done ++ [t]) w1 N1 (st_good _ _ _ _ S)).
        assert (RF' : forall tr a t0 b, moment (w_trace w1) tr -> (done ++ [t]) ++ rest = a ++ t0 :: b -> (forall t', In t' a -> ran_with o tr s t' XPassed) ->
            removed_for tr (w_fs w1) s t0).
        { rewrite F. intros tr a t0 b M E. rewrite <- app_assoc in E. apply (RF tr a t0 b); [|exact E].
          eapply moment_trans; [apply (st_mom _ _ _ _ S)|exact M]. }
        assert (D' : forall t0, In t0 (done ++ [t]) -> ran_with o (w_trace w1) s t0 XPassed).
        { intros t0 Ht. apply in_app_or in Ht as [Ht|[<-|[]]].
          - eapply ran_with_mono; [apply (st_mom _ _ _ _ S)|]. now apply D.
          - exact (SAY _ eq_refl). }
        specialize (IH RF' SP1 D').
        destruct (fold_tests hash16 o ex s (Some Passed) rest w1) as [w2 r2].
        destruct IH as ((ts & rest' & E & S2) & [F2 B2] & DB2 & NC2 & N2 & SAY2).
        split.
        { exists (t :: ts), rest'. split; [now rewrite E|].
          change (map (pair s) (t :: ts)) with ([(s, t)] ++ map (pair s) ts).
          change (@nil removal) with (@nil removal ++ []). eapply Step_trans; eassumption. }
        split; [split; congruence|]. split; [congruence|]. split; [exact NC2|]. split; [exact N2|].
        intros out Eo. specialize (SAY2 out Eo). now rewrite <- app_assoc in SAY2.
      * rewrite fold_tests_stop by exact NP. split; [exact STOP|]. split; [split; assumption|].
        split; [exact DB|]. split; [split; discriminate|]. split; [exact N1|].
        intros out Eo. injection Eo as <-. specialize (SAY acc eq_refl).
        assert (PASS : forall t', In t' done -> ran_with o (w_trace w1) s t' XPassed).
        { intros t' Ht. eapply ran_with_mono; [apply (st_mom _ _ _ _ S)|]. now apply D. }
        destruct acc as [[]|]; cbn in SAY |- *; try contradiction; try congruence.
        -- split; [|discriminate]. exists done, t, rest. auto.
        -- split; [|discriminate]. exists done, t, rest. auto.
        -- split; [|discriminate]. exists done, t, rest. auto.
        -- exists t. split; [apply in_or_app; right; now left|exact SAY].
    + split; [exact STOP|]. split; [split; assumption|]. split; [exact DB|].
      split; [eapply plain_err; exact NC|]. split; [exact N1|discriminate].
    + split; [exact STOP|]. split; [split; assumption|]. split; [exact DB|].
      split; [split; discriminate|]. split; [exact N1|discriminate].
Qed.

(** The candidate has been dealt with: reported, or one of its tests could not be judged. *)
Definition completed (tr : trace) (c : cand) : Prop :=
  (exists r, In (EConsole r) tr /\ rm_span r = c_span c) \/
  (exists t, In t (c_tests c) /\ ran_with o tr (c_span c) t XNone).

Lemma completed_mono a b c : moment a b -> completed a c -> completed b c.
Proof.
  intros M [(r & H & K)|(t & H & K)]; [left|right].
  - exists r. split; [eapply moment_in; eassumption|exact K].
  - exists t. split; [exact H|eapply ran_with_mono; eassumption].
Qed.

Lemma test_candidate_spec ex m c t w :
  (w_db w = None <-> usedb = false) -> ~ In ECtrlC (w_trace w) -> AllGood (w_trace w) ->
  is_cand m c -> only_removed contents o fs0 (w_fs w) (map fst (stm_statement m)) (c_span c) ->
  source_text (contents (sp_path (c_span c))) (c_span c) = Ok t ->
  dry_run_ok o (w_trace w) (sp_path (c_span c)) -> since_poll (w_trace w) = [] -> fresh (c_span c) w ->
  let '(w', r) := test_candidate hash16 o ex c t w in
  (exists ts rest I, c_tests c = ts ++ rest /\ Step w w' (map (pair (c_span c)) ts) I /\
     (I = [] \/ exists x, I = [x] /\ rm_span x = c_span c /\ rm_outcome x <> Skipped) /\ (r <> Ok tt -> I = [])) /\
  same_disk w w' /\ okres r (w_trace w') /\
  (r = Ok tt -> completed (w_trace w') c /\ since_poll (w_trace w') = []).
Proof.
  intros U N G IC OR ST DK SP FR. unfold test_candidate, mbind at 1.
  pose proof (fold_tests_spec ex (c_span c) (c_tests c) [] w N G) as H.
  assert (RF : forall tr a t0 b, moment (w_trace w) tr -> [] ++ c_tests c = a ++ t0 :: b -> (forall t', In t' a -> ran_with o tr (c_span c) t' XPassed) ->
      removed_for tr (w_fs w) (c_span c) t0).
  { intros tr a t0 b M Ht Ha. exists m, c, a, b. repeat split; auto; try apply IC; try apply OR. eapply dry_run_ok_mono; eassumption. }
  assert (SP' : forall x, In x (since_poll (w_trace w)) -> x = c_span c) by (rewrite SP; intros ? []).
  specialize (H RF SP' (fun t H => match H with end)).
  destruct (fold_tests hash16 o ex (c_span c) (Some Passed) (c_tests c) w) as [w1 r1].
  destruct H as ((ts & rest & E & S) & [F B] & DB & NC & N1 & SAY). cbn [app] in SAY.
  destruct r1 as [out|e|].
  2:{ split; [exists ts, rest, []; auto|]. split; [split; assumption|]. split; [|discriminate].
      apply plain_ok; [eapply plain_err; exact NC|exact N1]. }
  2:{ split; [exists ts, rest, []; auto|]. split; [split; assumption|]. split; [exact N1|discriminate]. }
  specialize (SAY out eq_refl). unfold mbind at 1.
  pose proof (check_ctrlc_spec w1 N1 (st_good _ _ _ _ S)) as C.
  destruct (check_ctrlc o w1) as [w2 r2].
  destruct C as (S2 & O2 & F2 & B2 & CT & NP).
  assert (S12 : Step w w2 (map (pair (c_span c)) ts) []).
  { rewrite <- (app_nil_r (map _ ts)). change (@nil removal) with (@nil removal ++ []). eapply Step_trans; eassumption. }
  destruct r2 as [[]|e|]; [| |congruence].
  2:{ split; [exists ts, rest, []; auto|]. split; [split; congruence|]. split; [exact O2|discriminate]. }
  destruct (CT eq_refl) as (T2 & D2). pose proof (O2 : ~ In ECtrlC (w_trace w2)) as N2.
  assert (SP2 : since_poll (w_trace w2) = []) by (rewrite T2; reflexivity).
  unfold mbind at 1. destruct out as [x|].
  - destruct SAY as [J NS]. set (rm := Removal (c_span c) t x).
    assert (REC : recorded (w_trace w2) rm).
    { exists m, c. split; [exact IC|]. split; [reflexivity|]. split; [exact ST|]. eapply justified_mono; [apply (st_mom _ _ _ _ S2)|exact J]. }
    assert (U2 : w_db w2 = None <-> usedb = false) by (rewrite D2, DB; exact U).
    unfold emit, mbind.
    pose proof (db_insert_spec rm w2 U2 N2 (st_good _ _ _ _ S2) REC) as I.
    assert (CF2 : rm_outcome rm <> Skipped -> exists pre', w_trace w2 = EPoll :: pre') by (intros _; rewrite T2; eauto).
    specialize (I CF2 (fresh_db _ w w2 ltac:(congruence) FR)). destruct (db_insert o rm w2) as [w3 r3].
    destruct I as (O3 & F3 & B3 & IOK & IERR).
    destruct r3 as [[]|e|].
    + cbn [emit_event].
      assert (REC3 : AllGood (w_trace w3) /\ Good (EConsole rm) (w_trace w3) /\ exists I, Step w w3 (map (pair (c_span c)) ts) I /\ (I = [] \/ I = [rm]) /\ ~ In ECtrlC (w_trace w3) /\ since_poll (w_trace w3) = []).
      { destruct (IOK eq_refl) as [(Ut & S3 & T3)|(Uf & ->)].
        - split; [apply (st_good _ _ _ _ S3)|]. split.
          + split; [left; rewrite T3; intros [X|X]; [discriminate|auto]|].
            split; [destruct REC as (m' & c' & Q1 & Q2 & Q3 & Q4); exists m', c'; repeat split; auto; try apply Q1; eapply justified_mono; [apply (st_mom _ _ _ _ S3)|exact Q4]|].
            split; [exact NS|]. intros _. eauto.
          + exists [rm]. split; [|split; [now right|rewrite T3; split; [intros [X|X]; [discriminate|auto]|exact SP2]]].
            rewrite <- (app_nil_r (map _ ts)). change [rm] with ([] ++ [rm]). eapply Step_trans; eassumption.
        - split; [apply (st_good _ _ _ _ S2)|]. split.
          + split; [now left|]. split; [exact REC|]. split; [exact NS|]. congruence.
          + exists []. auto. }
      destruct REC3 as (G3 & GC & I & SI & HI & N3 & SP3).
      set (w4 := log (EConsole rm) w3).
      assert (S4 : Step w w4 (map (pair (c_span c)) ts) I).
      { rewrite <- (app_nil_r (map _ ts)). rewrite <- (app_nil_r I). eapply Step_trans; [exact SI|].
        eapply Step_log with (e := EConsole rm); try reflexivity; assumption. }
      assert (N4 : ~ In ECtrlC (w_trace w4)) by (cbn; intros [X|X]; [discriminate|auto]).
      pose proof (update_progress_spec None 1 w4 N4 (st_good _ _ _ _ S4) ltac:(discriminate)) as UP.
      destruct (update_progress o None 1 w4) as [w5 r5]. destruct UP as (S5 & O5 & F5 & B5 & T5).
      destruct (T5 eq_refl) as [T5' ->].
      split.
      { exists ts, rest, I. split; [exact E|]. split.
        - rewrite <- (app_nil_r (map _ ts)). rewrite <- (app_nil_r I). eapply Step_trans; eassumption.
        - split; [|congruence]. destruct HI as [->| ->]; [now left|right; exists rm; auto]. }
      split; [split; [rewrite F5; cbn; congruence|rewrite B5; cbn; congruence]|].
      split; [exact O5|]. intros _. split; [|rewrite T5'; exact SP3]. left. exists rm. split; [rewrite T5'; now left|reflexivity].
    + assert (X : w3 = w2) by (apply IERR; discriminate). subst w3.
      split; [exists ts, rest, []; auto|]. split; [split; congruence|]. split; [exact O3|discriminate].
    + assert (X : w3 = w2) by (apply IERR; discriminate). subst w3.
      split; [exists ts, rest, []; auto|]. split; [split; congruence|]. split; [exact O3|discriminate].
  - cbn [ret].
    pose proof (update_progress_spec None 1 w2 N2 (st_good _ _ _ _ S2) ltac:(discriminate)) as UP.
    destruct (update_progress o None 1 w2) as [w5 r5]. destruct UP as (S5 & O5 & F5 & B5 & T5).
    destruct (T5 eq_refl) as [T5' ->].
    split.
    { exists ts, rest, []. split; [exact E|]. split; [|split; [now left|reflexivity]].
      rewrite <- (app_nil_r (map _ ts)). change (@nil removal) with (@nil removal ++ []). eapply Step_trans; eassumption. }
    split; [split; congruence|]. split; [exact O5|]. intros _. split; [|rewrite T5'; exact SP2]. right.
    destruct SAY as (t0 & H1 & H2). exists t0. split; [exact H1|]. rewrite T5'. eapply ran_with_mono; [apply (st_mom _ _ _ _ S2)|exact H2].
Qed.


(** ** The disk *)

Definition guard_fn : span -> text := guard_of o.

Definition Disk (m : span_test_maps) (p : path) (remaining : list cand) (w : world) : Prop :=
  match w_ib w with
  | None => forall q, w_fs w q = fs0 q
  | Some (p', t) => p' = p /\ t = fs0 p /\ (forall q, q <> p -> w_fs w q = fs0 q) /\
      exists extra pre sts, map fst (stm_statement m) = pre ++ sts /\
        (exists tr n, o_extra o tr p n = Ok extra) /\
        instrument (fun c => c) extra guard_fn end_text (contents p) sts = Some (w_fs w p) /\
        (forall c, In c remaining -> c_kind c = Statement -> In (c_span c) sts)
  end.

Lemma Disk_sub m p l l' w : (forall c, In c l' -> In c l) -> Disk m p l w -> Disk m p l' w.
Proof.
  unfold Disk. intros H. destruct (w_ib w) as [[p' t]|]; [|auto].
  intros (A & B & C & (ex & pre & sts & D & E & E' & F)). repeat split; auto.
  exists ex, pre, sts. auto 6.
Qed.

Lemma Disk_same m p l w w' : same_disk w w' -> Disk m p l w -> Disk m p l w'.
Proof. unfold Disk. intros [-> ->]. auto. Qed.

Lemma write_file_spec p t w : ~ In ECtrlC (w_trace w) -> AllGood (w_trace w) ->
  let '(w', r) := write_file o p t w in
  Step w w' [] [] /\ okres r (w_trace w') /\ w_ib w' = w_ib w /\ w_db w' = w_db w /\
  (forall q, q <> p -> w_fs w' q = w_fs w q) /\ (r = Ok tt -> w_fs w' p = t).
Proof.
  intros N G. unfold write_file.
  assert (S : forall f, Step w (log (EWrite p) (set_fs f w)) [] []).
  { intros f. eapply Step_log with (e := EWrite p); try reflexivity; [exact G|]. split; [now left|exact I]. }
  assert (N' : forall f, ~ In ECtrlC (w_trace (log (EWrite p) (set_fs f w)))).
  { intros f. cbn. intros [C|C]; [discriminate|auto]. }
  destruct (o_write o (w_trace w) p); cbn [okres].
  - split; [apply S|]. split; [apply N'|]. cbn. repeat split; try discriminate.
    intros q Hq. unfold put_file. destruct (path_eqb p q) eqn:E; [|reflexivity]. apply path_eqb_eq in E. congruence.
  - split; [apply S|]. split; [apply N'|]. cbn. repeat split.
    + intros q Hq. unfold put_file. destruct (path_eqb p q) eqn:E; [|reflexivity]. apply path_eqb_eq in E. congruence.
    + intros _. unfold put_file. now rewrite path_eqb_refl.
Qed.

Lemma backup_new_spec p w : ~ In ECtrlC (w_trace w) -> AllGood (w_trace w) ->
  let '(w', r) := backup_new o p w in
  Step w w' [] [] /\ okres r (w_trace w') /\ same_disk w w' /\ w_db w' = w_db w /\
  (forall b, r = Ok b -> b = (p, w_fs w p)).
Proof.
  intros N G. unfold backup_new. destruct (o_backup_ok o (w_trace w) p); cbn.
  - split; [eapply Step_log with (e := EBackup p); try reflexivity; [exact G|split; [now left|exact I]]|].
    split; [intros [C|C]; [discriminate|auto]|]. repeat split; auto. intros b E. now injection E as <-.
  - split; [now apply Step_refl|]. repeat split; auto. discriminate.
Qed.

Lemma restore_disk p w : (forall q, q <> p -> w_fs w q = fs0 q) ->
  forall q, w_fs (restore (p, fs0 p) w) q = fs0 q.
Proof.
  intros H q. cbn. unfold put_file. destruct (path_eqb p q) eqn:E.
  - apply path_eqb_eq in E. now subst.
  - apply path_eqb_neq in E. apply H. congruence.
Qed.

Lemma Step_nil_r w1 w2 w3 R I : Step w1 w2 R I -> Step w2 w3 [] [] -> Step w1 w3 R I.
Proof. intros A B. rewrite <- (app_nil_r R), <- (app_nil_r I). eapply Step_trans; eassumption. Qed.
Lemma Step_nil_l w1 w2 w3 R I : Step w1 w2 [] [] -> Step w2 w3 R I -> Step w1 w3 R I.
Proof. intros A B. change R with ([] ++ R). change I with ([] ++ I). eapply Step_trans; eassumption. Qed.

Lemma Step_usedb w w' R I : Step w w' R I -> (w_db w = None <-> usedb = false) -> (w_db w' = None <-> usedb = false).
Proof. intros [_ _ _ D _ _] U. rewrite D. destruct (w_db w); cbn; [|exact U]. split; [discriminate|]. intros F. apply U in F. discriminate. Qed.

(** Result of dealing with one candidate. *)
Definition CandPost (c : cand) (w w' : world) (r : res run_error unit) : Prop :=
  (exists ts rest I, c_tests c = ts ++ rest /\ Step w w' (map (pair (c_span c)) ts) I /\
     (I = [] \/ exists x, I = [x] /\ rm_span x = c_span c /\ rm_outcome x <> Skipped) /\ (r <> Ok tt -> I = [])) /\
  okres r (w_trace w') /\ (r = Ok tt -> completed (w_trace w') c /\ since_poll (w_trace w') = []).

Lemma with_removal_spec m c t w :
  (w_db w = None <-> usedb = false) -> ~ In ECtrlC (w_trace w) -> AllGood (w_trace w) ->
  is_cand m c -> w_ib w = None -> (forall q, w_fs w q = fs0 q) ->
  source_text (contents (sp_path (c_span c))) (c_span c) = Ok t ->
  dry_run_ok o (w_trace w) (sp_path (c_span c)) -> since_poll (w_trace w) = [] -> fresh (c_span c) w ->
  let '(w', r) := with_removal contents o (c_span c) (test_candidate hash16 o true c t) w in
  CandPost c w w' r /\ w_ib w' = None /\ (forall q, w_fs w' q = fs0 q).
Proof.
  intros U N G IC IB FS ST DK SP FR. unfold with_removal. set (p := sp_path (c_span c)) in *.
  assert (NIL : forall w' (r : res run_error unit), Step w w' [] [] -> okres r (w_trace w') -> r <> Ok tt -> CandPost c w w' r).
  { intros w' r S O X. split; [exists [], (c_tests c), []; auto|]. split; [exact O|congruence]. }
  pose proof (backup_new_spec p w N G) as B.
  destruct (backup_new o p w) as [w1 [b|e|]].
  2,3: destruct B as (S1 & O1 & [F1 B1] & D1 & _); split; [apply NIL; auto; discriminate|]; split; [congruence|]; intros q; rewrite F1; apply FS.
  destruct B as (S1 & O1 & [F1 B1] & D1 & Hb). rewrite (Hb b eq_refl).
  rewrite (FS p). cbn in O1. unfold finally.
  destruct (remove_text (contents p) (c_span c)) as [[removed new]|] eqn:RT.
  - unfold mbind at 1. pose proof (write_file_spec p new w1 O1 (st_good _ _ _ _ S1)) as WF.
    destruct (write_file o p new w1) as [w2 r2]. destruct WF as (S2 & O2 & B2 & D2 & Q2 & T2).
    assert (Q0 : forall q, q <> p -> w_fs w2 q = fs0 q) by (intros q Hq; rewrite (Q2 q Hq), F1; apply FS).
    destruct r2 as [[]|e|].
    + cbn in O2.
      assert (OR : only_removed contents o fs0 (w_fs w2) (map fst (stm_statement m)) (c_span c)).
      { split; [exact Q0|]. left. exists removed. fold p. rewrite (T2 eq_refl). exact RT. }
      assert (U2 : w_db w2 = None <-> usedb = false) by (rewrite D2, D1; exact U).
      assert (S12 : Step w w2 [] []) by (eapply Step_nil_l; eassumption).
      pose proof (test_candidate_spec true m c t w2 U2 O2 (st_good _ _ _ _ S2) IC OR ST
        (dry_run_ok_mono _ _ _ (st_mom _ _ _ _ S12) DK) (Step_since_nil _ _ _ S12 SP) (fresh_db _ w w2 ltac:(congruence) FR)) as TC.
      destruct (test_candidate hash16 o true c t w2) as [w3 r3].
      destruct TC as ((ts & rest & I & E & S3 & HI) & [F3 B3] & O3 & C3).
      pose proof (good_restore w3 (p, fs0 p) (st_good _ _ _ _ S3)) as S4.
      split; [|split].
      * split; [exists ts, rest, I; split; [exact E|]; split; [|exact HI]|].
        -- eapply Step_nil_r; [|exact S4]. eapply Step_nil_l; [exact S12|exact S3].
        -- split; [now apply okres_restore|]. intros X. destruct (C3 X) as [C4 SP4]. split; [eapply completed_mono; [apply (st_mom _ _ _ _ S4)|exact C4]|]. eapply Step_since_nil; eassumption.
      * cbn. congruence.
      * apply restore_disk. intros q Hq. rewrite F3. now apply Q0.
    + pose proof (good_restore w2 (p, fs0 p) (st_good _ _ _ _ S2)) as S4.
      split; [apply NIL; [|now apply okres_restore|discriminate]|split; [cbn; congruence|now apply restore_disk]].
      eapply Step_nil_r; [|exact S4]. eapply Step_nil_l; eassumption.
    + pose proof (good_restore w2 (p, fs0 p) (st_good _ _ _ _ S2)) as S4.
      split; [apply NIL; [|now apply okres_restore|discriminate]|split; [cbn; congruence|now apply restore_disk]].
      eapply Step_nil_r; [|exact S4]. eapply Step_nil_l; eassumption.
  - cbn [panic]. pose proof (good_restore w1 (p, fs0 p) (st_good _ _ _ _ S1)) as S4.
    split; [apply NIL; [eapply Step_nil_r; eassumption|now apply (okres_restore Panic)|discriminate]|].
    split; [cbn; congruence|]. apply restore_disk. intros q _. rewrite F1. apply FS.
Qed.

Lemma one_candidate_spec m c remaining w :
  (w_db w = None <-> usedb = false) -> ~ In ECtrlC (w_trace w) -> AllGood (w_trace w) ->
  is_cand m c -> Disk m (sp_path (c_span c)) (c :: remaining) w ->
  dry_run_ok o (w_trace w) (sp_path (c_span c)) -> since_poll (w_trace w) = [] -> fresh (c_span c) w ->
  let '(w', r) := one_candidate hash16 contents o c w in
  CandPost c w w' r /\ Disk m (sp_path (c_span c)) remaining w' /\ (c_kind c = MethodCall -> w_ib w' = None).
Proof.
  intros U N G IC D DK SP FR. unfold one_candidate, mbind at 1. set (p := sp_path (c_span c)) in *.
  set (w1 := match c_kind c with Statement => w | MethodCall => drop_ib w end).
  assert (H1 : Step w w1 [] [] /\ ~ In ECtrlC (w_trace w1) /\ Disk m p (c :: remaining) w1 /\
               w_db w1 = w_db w /\ (c_kind c = MethodCall -> w_ib w1 = None)).
  { unfold w1. destruct (c_kind c).
    - split; [now apply Step_refl|]. repeat split; auto. discriminate.
    - unfold drop_ib. unfold Disk in D. destruct (w_ib w) as [[p' t]|] eqn:E.
      + destruct D as (-> & -> & Q & _). split.
        { eapply Step_log with (e := ERestore p); try reflexivity; [exact G|split; [right; eauto|exact I]]. }
        split; [cbn; intros [C|C]; [discriminate|auto]|]. split; [|auto].
        unfold Disk. cbn [w_ib set_ib]. apply restore_disk. exact Q.
      + split; [now apply Step_refl|]. split; [exact N|]. split; [unfold Disk; rewrite E; exact D|]. auto. }
  destruct H1 as (S1 & N1 & D1 & DB1 & K1).
  assert (U1 : w_db w1 = None <-> usedb = false) by (rewrite DB1; exact U).
  assert (SP1 : since_poll (w_trace w1) = []) by (eapply Step_since_nil; eassumption).
  assert (DK1 : dry_run_ok o (w_trace w1) p) by (eapply dry_run_ok_mono; [apply (st_mom _ _ _ _ S1)|exact DK]).
  assert (FR1 : fresh (c_span c) w1) by (eapply fresh_db; eassumption).
  unfold mbind. pose proof (source_text_m_spec (c_span c) w1) as ST.
  destruct (source_text_m contents (c_span c) w1) as [w2 [t|e|]].
  2,3: destruct ST as (-> & _ & X); split; [|split; [eapply Disk_sub; [|exact D1]; intros; now right|exact K1]];
    (split; [exists [], (c_tests c), []; split; [reflexivity|]; split; [exact S1|]; split; [now left|reflexivity]|]);
    (split; [first [apply plain_ok; [eapply plain_err; exact X|exact N1] | exact N1]|discriminate]).
  destruct ST as (-> & ST & _). specialize (ST t eq_refl).
  unfold Disk in D1. destruct (w_ib w1) as [[p' tb]|] eqn:IB.
  - destruct D1 as (-> & -> & Q & (extra & pre & sts & E1 & EX & E2 & E3)).
    destruct (c_kind c) eqn:K; [|specialize (K1 eq_refl); congruence].
    assert (OR : only_removed contents o fs0 (w_fs w1) (map fst (stm_statement m)) (c_span c)).
    { split; [exact Q|]. right. exists extra, pre, sts. split; [exact E1|].
      split; [apply E3; [now left|exact K]|]. split; [exact EX|exact E2]. }
    pose proof (test_candidate_spec false m c t w1 U1 N1 (st_good _ _ _ _ S1) IC OR ST DK1 SP1 FR1) as TC.
    destruct (test_candidate hash16 o false c t w1) as [w3 r3].
    destruct TC as ((ts & rest & I & E & S3 & HI) & SD & O3 & C3).
    split; [|split; [|discriminate]].
    + split; [exists ts, rest, I; split; [exact E|]; split; [eapply Step_nil_l; eassumption|exact HI]|]. auto.
    + apply (Disk_same m p remaining w1 w3 SD). unfold Disk. rewrite IB. repeat split; auto.
      exists extra, pre, sts. repeat split; auto. intros x Hx. apply E3. now right.
  - pose proof (with_removal_spec m c t w1 U1 N1 (st_good _ _ _ _ S1) IC IB D1 ST DK1 SP1 FR1) as WR.
    destruct (with_removal contents o (c_span c) (test_candidate hash16 o true c t) w1) as [w3 r3].
    destruct WR as (((ts & rest & I & E & S3 & HI) & O3 & C3) & IB3 & FS3).
    split; [|split; [unfold Disk; rewrite IB3; exact FS3|auto]].
    split; [exists ts, rest, I; split; [exact E|]; split; [eapply Step_nil_l; eassumption|exact HI]|]. auto.
Qed.

Lemma lift_spec {A} (x : res unit A) w :
  let '(w', r) := lift x w in w' = w /\ plain r /\ (forall a, r = Ok a -> x = Ok a).
Proof. destruct x; cbn; repeat split; try discriminate. intros ? H. now injection H as ->. Qed.

Lemma instrument_statements_spec m p pre spans w :
  (w_db w = None <-> usedb = false) -> ~ In ECtrlC (w_trace w) -> AllGood (w_trace w) ->
  w_ib w = None -> (forall q, w_fs w q = fs0 q) -> map fst (stm_statement m) = pre ++ take_statements spans ->
  (forall c, In c spans -> c_kind c = Statement -> In (c_span c) (take_statements spans)) ->
  let '(w', r) := instrument_statements contents o p spans w in
  Step w w' [] [] /\ okres r (w_trace w') /\ Disk m p spans w'.
Proof.
  intros U N G IB FS PRE TS. unfold instrument_statements.
  pose proof (backup_new_spec p w N G) as B.
  destruct (backup_new o p w) as [w1 [b|e|]].
  2,3: destruct B as (S1 & O1 & [F1 B1] & _ & _); split; [exact S1|]; split; [exact O1|];
       unfold Disk; rewrite B1, IB; intros q; rewrite F1; apply FS.
  destruct B as (S1 & O1 & [F1 B1] & D1 & Hb). rewrite (Hb b eq_refl), (FS p). cbn in O1.
  assert (FS1 : forall q, w_fs w1 q = fs0 q) by (intros q; rewrite F1; apply FS).
  unfold mbind at 1, instrument_and_write.
  assert (REST : forall w2 (r : res run_error bool), Step w w2 [] [] -> okres r (w_trace w2) -> w_ib w2 = None ->
    (forall q, q <> p -> w_fs w2 q = fs0 q) ->
    Step w (restore (p, fs0 p) w2) [] [] /\ okres r (w_trace (restore (p, fs0 p) w2)) /\ Disk m p spans (restore (p, fs0 p) w2)).
  { intros w2 r S2 O2 IB2 Q2. split; [eapply Step_nil_r; [exact S2|apply good_restore, (st_good _ _ _ _ S2)]|].
    split; [now apply okres_restore|]. unfold Disk. cbn [w_ib restore log set_fs]. rewrite IB2. now apply restore_disk. }
  unfold mbind at 1.
  pose proof (lift_spec (o_extra o (w_trace w1) p (length (take_statements spans))) w1) as L.
  destruct (lift (o_extra o (w_trace w1) p (length (take_statements spans))) w1) as [w2 [extra|e|]].
  2:{ destruct L as (-> & L1 & _). apply (REST w1 (Err e)); [exact S1|apply plain_ok; [eapply plain_err; exact L1|exact O1]|congruence|intros; apply FS1]. }
  2:{ destruct L as (-> & L1 & _). apply (REST w1 Panic); [exact S1|exact O1|congruence|intros; apply FS1]. }
  destruct L as (-> & _ & LX). unfold mbind at 1.
  pose proof (lift_spec (guards_ok o (take_statements spans)) w1) as L.
  destruct (lift (guards_ok o (take_statements spans)) w1) as [w2 [u|e|]].
  2:{ destruct L as (-> & L1 & _). apply (REST w1 (Err e)); [exact S1|apply plain_ok; [eapply plain_err; exact L1|exact O1]|congruence|intros; apply FS1]. }
  2:{ destruct L as (-> & L1 & _). apply (REST w1 Panic); [exact S1|exact O1|congruence|intros; apply FS1]. }
  destruct L as (-> & _ & _).
  destruct (instrument (fun c => c) extra (guard_of o) end_text (contents p) (take_statements spans)) as [t|] eqn:IN.
  2:{ cbn [panic]. apply (REST w1 Panic); [exact S1|exact O1|congruence|intros; apply FS1]. }
  pose proof (write_file_spec p t w1 O1 (st_good _ _ _ _ S1)) as WF.
  destruct (write_file o p t w1) as [w2 r2]. destruct WF as (S2 & O2 & B2 & D2 & Q2 & T2).
  assert (S12 : Step w w2 [] []) by (eapply Step_nil_l; eassumption).
  assert (Q0 : forall q, q <> p -> w_fs w2 q = fs0 q) by (intros q Hq; rewrite (Q2 q Hq); apply FS1).
  destruct r2 as [[]|e|].
  2:{ apply (REST w2 (Err e)); auto; congruence. }
  2:{ apply (REST w2 Panic); auto; congruence. }
  cbn in O2. set (w3 := log (EBuild p (w_fs w2)) w2).
  assert (S3 : Step w w3 [] []).
  { eapply Step_nil_r; [exact S12|]. eapply Step_log with (e := EBuild p (w_fs w2)); try reflexivity; [apply (st_good _ _ _ _ S2)|].
    split; [now left|exact Q0]. }
  assert (N3 : ~ In ECtrlC (w_trace w3)) by (cbn; intros [C|C]; [discriminate|auto]).
  destruct (o_build o (w_trace w2) p) as [[]|e|].
  - split; [eapply Step_nil_r; [exact S3|apply Step_same; try reflexivity; apply (st_good _ _ _ _ S3)]|].
    split; [exact N3|]. unfold Disk. cbn [w_ib set_ib]. repeat split; auto.
    exists extra, pre, (take_statements spans). split; [exact PRE|]. split; [eauto|]. split; [|exact TS].
    cbn. rewrite (T2 eq_refl). exact IN.
  - pose proof (warn_spec InstrumentationNonbuildable (EWarn InstrumentationNonbuildable) w3 N3 (st_good _ _ _ _ S3) I) as WN.
    destruct (warn o InstrumentationNonbuildable (EWarn InstrumentationNonbuildable) w3) as [w4 r4].
    destruct WN as (S4 & O4 & F4 & B4 & _).
    assert (S34 : Step w w4 [] []) by (eapply Step_nil_r; eassumption).
    assert (Q4 : forall q, q <> p -> w_fs w4 q = fs0 q) by (intros q Hq; rewrite F4; now apply Q0).
    assert (IB4 : w_ib w4 = None) by (rewrite B4; cbn; congruence).
    destruct r4 as [u'|e'|].
    + apply (REST w4 (Ok false)); auto.
    + apply (REST w4 (Err e')); auto.
    + apply (REST w4 Panic); auto.
  - apply (REST w3 Panic); auto. cbn; congruence.
Qed.


(** ** The loops.  [Rel] relates the candidates and the past removals that are left;
    [T] holds of candidates that are tested, [K] of those that are skipped. *)

Context (Rel : list cand -> list removal -> Prop) (T K : cand -> Prop).
Hypothesis R_eq : forall c cs r rs, Rel (c :: cs) (r :: rs) ->
  span_compare (c_span c) (rm_span r) = Eq -> K c /\ Rel cs rs.
Hypothesis R_gt : forall c cs r rs, Rel (c :: cs) (r :: rs) ->
  span_compare (c_span c) (rm_span r) = Gt -> W (Missing r) /\ Rel (c :: cs) rs.
Hypothesis R_lt : forall c cs r rs, Rel (c :: cs) (r :: rs) ->
  span_compare (c_span c) (rm_span r) = Lt -> W (Unexpected r) /\ T c /\ Rel cs (r :: rs).
Hypothesis R_nil : forall c cs, Rel (c :: cs) [] -> T c /\ Rel cs [].
Hypothesis R_drop : forall c cs rs, Rel (c :: cs) rs -> ~ In (c_span c) (map rm_span rs) -> T c /\ Rel cs rs.

Hypothesis H_skip : forall r tr p, W (Unexpected r) -> dry_run_failed o tr p -> DBF.

Lemma skip_past_spec later fuel : forall mm n spans past mm' n' spans' past',
  length spans + length past <= fuel ->
  skip_past fuel mm n spans past = (mm', n', spans', past') ->
  Rel (spans ++ later) past -> (forall m, mm = Some m -> W m) ->
  (exists a, spans = a ++ spans' /\ n' = n + length a /\ (forall c, In c a -> K c)) /\
  (exists b, past = b ++ past') /\ Rel (spans' ++ later) past' /\ (forall m, mm' = Some m -> W m) /\
  (match spans', past' with c :: _, r :: _ => span_compare (c_span c) (rm_span r) = Lt | _, _ => True end).
Proof.
  induction fuel as [|f IH]; intros mm n spans past mm' n' spans' past' L E HR HW.
  - destruct spans, past; cbn in L; try lia. cbn in E. injection E as <- <- <- <-.
    split; [exists []; cbn; repeat split; auto; intros ? []|]. split; [exists []; reflexivity|]. auto.
  - cbn [skip_past] in E. destruct spans as [|c cs].
    { injection E as <- <- <- <-. split; [exists []; cbn; repeat split; auto; intros ? []|]. split; [exists []; reflexivity|]. auto. }
    destruct past as [|r rs].
    { injection E as <- <- <- <-. split; [exists []; cbn; repeat split; auto; intros ? []|]. split; [exists []; reflexivity|]. auto. }
    cbn [app] in HR. destruct (span_compare (c_span c) (rm_span r)) eqn:C.
    + destruct (R_eq _ _ _ _ HR C) as [HK HR'].
      destruct (IH _ _ cs rs _ _ _ _ ltac:(cbn in L; lia) E HR' HW) as ((a & A1 & A2 & A3) & (b & B) & R1 & W1 & X).
      split; [exists (c :: a); cbn; split; [now rewrite A1|]; split; [lia|]; intros x [<-|Hx]; auto|].
      split; [exists (r :: b); cbn; now rewrite B|]. auto.
    + injection E as <- <- <- <-. split; [exists []; cbn; repeat split; auto; intros ? []|].
      split; [exists []; reflexivity|]. split; [exact HR|]. split; [|exact C].
      intros m Hm. injection Hm as <-. now apply (R_lt _ _ _ _ HR C).
    + destruct (R_gt _ _ _ _ HR C) as [HW' HR'].
      assert (HW2 : forall m, match mm with None => Some (Missing r) | Some _ => mm end = Some m -> W m).
      { intros m Hm. destruct mm; [now apply HW|]. injection Hm as <-. exact HW'. }
      destruct (IH _ _ (c :: cs) rs _ _ _ _ ltac:(cbn in *; lia) E HR' HW2) as ((a & A1 & A2 & A3) & (b & B) & R1 & W1 & X).
      split; [exists a; auto|]. split; [exists (r :: b); cbn; now rewrite B|]. auto.
Qed.

Definition flat (l : list (cand * list text)) : list (span * text) :=
  flat_map (fun x => map (pair (c_span (fst x))) (snd x)) l.
Definition prefixes (l : list (cand * list text)) : Prop :=
  forall x, In x l -> exists rest, c_tests (fst x) = snd x ++ rest.

Lemma flat_app a b : flat (a ++ b) = flat a ++ flat b.
Proof. apply flat_map_app. Qed.

(** Summary of a stretch of the run over the candidates [cs]. *)
Definition Summary (cs : list cand) (w w' : world) : Prop :=
  exists (l : list (cand * list text)) (I : list removal),
    Step w w' (flat l) I /\ prefixes l /\ (forall x, In x l -> T (fst x)) /\
    subseq (map fst l) cs /\ subseq (map rm_span I) (map c_span cs) /\
    (forall x, In x I -> exists c, In c cs /\ c_span c = rm_span x /\ T c) /\
    (NoDup (map c_span cs) -> forall x y, In x I -> rm_outcome x = Skipped -> In y l -> c_span (fst y) <> rm_span x).

Definition skipped_now (tr : trace) (c : cand) : Prop :=
  dry_run_failed o tr (sp_path (c_span c)) /\
  (usedb = true -> exists r, In (EInsert r) tr /\ rm_span r = c_span c /\ rm_outcome r = Skipped).

Lemma skipped_now_mono a b c : moment a b -> skipped_now a c -> skipped_now b c.
Proof.
  intros M [H K']. split; [eapply dry_run_failed_mono; eassumption|]. intros Ut.
  destruct (K' Ut) as (r & H1 & H2 & H3). exists r. repeat split; auto. eapply moment_in; eassumption.
Qed.

Definition finished (tr : trace) (c : cand) : Prop :=
  K c \/ completed tr c \/ skipped_now tr c.

Lemma finished_mono a b c : moment a b -> finished a c -> finished b c.
Proof.
  intros M [H|[H|H]]; [now left|right; left; eapply completed_mono; eassumption|].
  right; right. eapply skipped_now_mono; eassumption.
Qed.

Lemma Summary_nil w w' cs : Step w w' [] [] -> Summary cs w w'.
Proof.
  intros S. exists [], []. split; [exact S|]. split; [intros ? []|]. split; [intros ? []|].
  split; [constructor|]. split; [constructor|]. split; [intros ? []|intros _ ? ? []].
Qed.

Lemma Summary_trans cs1 cs2 w1 w2 w3 : Summary cs1 w1 w2 -> Summary cs2 w2 w3 -> Summary (cs1 ++ cs2) w1 w3.
Proof.
  intros (l1 & I1 & A1 & A2 & A3 & A4 & A5 & A6 & A7) (l2 & I2 & B1 & B2 & B3 & B4 & B5 & B6 & B7).
  exists (l1 ++ l2), (I1 ++ I2). rewrite flat_app, !map_app.
  split; [eapply Step_trans; eassumption|].
  split; [intros x Hx; apply in_app_or in Hx as [Hx|Hx]; auto|].
  split; [intros x Hx; apply in_app_or in Hx as [Hx|Hx]; auto|].
  split; [now apply subseq_app|]. split; [now apply subseq_app|]. split.
  { intros x Hx. apply in_app_or in Hx as [Hx|Hx].
    - destruct (A6 x Hx) as (c & H1 & H2 & H3). exists c. split; [apply in_or_app; now left|auto].
    - destruct (B6 x Hx) as (c & H1 & H2 & H3). exists c. split; [apply in_or_app; now right|auto]. }
  intros ND x y Hx Sx Hy E.
  assert (N1 : NoDup (map c_span cs1)) by (eapply subseq_nodup; [apply subseq_app_l|exact ND]).
  assert (N2 : NoDup (map c_span cs2)) by (eapply subseq_nodup; [apply subseq_app_r|exact ND]).
  apply in_app_or in Hx as [Hx|Hx]; apply in_app_or in Hy as [Hy|Hy].
  - exact (A7 N1 x y Hx Sx Hy E).
  - destruct (A6 x Hx) as (c & H1 & H2 & _).
    apply (nodup_app_disjoint _ _ (c_span c) ND); [now apply in_map|]. rewrite H2, <- E.
    apply in_map. eapply subseq_in; [exact B4|]. now apply in_map.
  - destruct (B6 x Hx) as (c & H1 & H2 & _).
    apply (nodup_app_disjoint _ _ (c_span c) ND); [|now apply in_map]. rewrite H2, <- E.
    apply in_map. eapply subseq_in; [exact A4|]. now apply in_map.
  - exact (B7 N2 x y Hx Sx Hy E).
Qed.

Lemma Summary_good cs w w' : Summary cs w w' -> AllGood (w_trace w').
Proof. intros (l & I & S & _). apply (st_good _ _ _ _ S). Qed.
Lemma Summary_mom cs w w' : Summary cs w w' -> moment (w_trace w) (w_trace w').
Proof. intros (l & I & S & _). apply (st_mom _ _ _ _ S). Qed.
Lemma Summary_usedb cs w w' : Summary cs w w' -> (w_db w = None <-> usedb = false) -> (w_db w' = None <-> usedb = false).
Proof. intros (l & I & S & _). eapply Step_usedb; eassumption. Qed.
Lemma Summary_sub cs cs' w w' : subseq cs cs' -> Summary cs w w' -> Summary cs' w w'.
Proof.
  intros X (l & I & A1 & A2 & A3 & A4 & A5 & A6 & A7). exists l, I. repeat split; auto; try apply A1.
  - eapply subseq_trans; eassumption.
  - eapply subseq_trans; [exact A5|]. now apply subseq_map.
  - intros x Hx. destruct (A6 x Hx) as (c & H1 & H2). exists c. split; [eapply subseq_in; eassumption|exact H2].
  - intros ND. apply A7. eapply subseq_nodup; [apply subseq_map; exact X|exact ND].
Qed.

(** Keys of the candidates to come are distinct and not yet in the database. *)
Definition Fresh (cs : list cand) (w : world) : Prop :=
  DBF \/ (NoDup (map (fun c => display_span (c_span c)) cs) /\
          forall c rows x, In c cs -> T c -> w_db w = Some rows -> In x rows ->
            display_span (rm_span x) <> display_span (c_span c)).

Lemma Fresh_summary cs1 cs2 w w' : Fresh (cs1 ++ cs2) w -> Summary cs1 w w' -> Fresh cs2 w'.
Proof.
  intros [F|[ND F]] (l & I & S & _ & _ & _ & _ & HI & _); [now left|right].
  rewrite map_app in ND. split; [eapply subseq_nodup; [apply subseq_app_r|exact ND]|].
  intros c rows x Hc Tc Hr Hx. rewrite (st_db _ _ _ _ S) in Hr.
  destruct (w_db w) as [rows0|] eqn:D; [|discriminate]. cbn in Hr. injection Hr as <-.
  apply in_app_or in Hx as [Hx|Hx]; [eapply F; eauto; apply in_or_app; now right|].
  destruct (HI x Hx) as (c' & H1 & H2 & _). rewrite <- H2. intros E.
  clear - ND H1 Hc E. induction cs1 as [|y cs1 IH]; [destruct H1|]. cbn in ND. inversion ND; subst.
  destruct H1 as [<-|H1]; [|now apply IH]. apply H2. apply in_or_app. right.
  apply in_map_iff. exists c. auto.
Qed.
Lemma Fresh_drop cs1 cs2 w : Fresh (cs1 ++ cs2) w -> Fresh cs2 w.
Proof.
  intros [F|[ND F]]; [now left|right]. rewrite map_app in ND.
  split; [eapply subseq_nodup; [apply subseq_app_r|exact ND]|].
  intros c rows x Hc. apply F. apply in_or_app; now right.
Qed.
Lemma Fresh_db cs w w' : w_db w' = w_db w -> Fresh cs w -> Fresh cs w'.
Proof. unfold Fresh. now intros ->. Qed.
Lemma Fresh_step cs w w' R : Step w w' R [] -> Fresh cs w -> Fresh cs w'.
Proof.
  intros S. apply Fresh_db. rewrite (st_db _ _ _ _ S). destruct (w_db w); cbn; now rewrite ?app_nil_r.
Qed.
Lemma Fresh_fresh c cs w : Fresh (c :: cs) w -> T c -> fresh (c_span c) w.
Proof. intros [F|[_ F]] HT; [now left|right]. intros rows x. eapply F; auto. now left. Qed.

(** The candidates that got a row come first, without a gap: all of those up to the last of
    them are finished. *)
Definition Gap (cs : list cand) (w w' : world) : Prop :=
  exists a b, cs = a ++ b /\ (forall c, In c a -> finished (w_trace w') c) /\
    (forall x, In x (inserts (w_trace w')) -> In x (inserts (w_trace w)) \/ In (rm_span x) (map c_span a)).

Lemma Gap_nil cs w w' R : Step w w' R [] -> Gap cs w w'.
Proof.
  intros S. exists [], cs. split; [reflexivity|]. split; [intros ? []|].
  intros x Hx. rewrite (st_ins _ _ _ _ S), app_nil_r in Hx. now left.
Qed.

(** [a] was finished (or skipped over) going from [w] to [w1]. *)
Lemma Gap_app cs1 cs1' cs2 w w1 w2 : (forall c, In c cs1 -> finished (w_trace w1) c) ->
  (forall c, In c cs1' -> In c cs1) -> Summary cs1' w w1 ->
  moment (w_trace w1) (w_trace w2) -> Gap cs2 w1 w2 -> Gap (cs1 ++ cs2) w w2.
Proof.
  intros F SUB (l & I & S & _ & _ & _ & _ & HI & _) M (a & b & -> & FA & HX).
  exists (cs1 ++ a), b. split; [now rewrite app_assoc|]. split.
  - intros c Hc. apply in_app_or in Hc as [Hc|Hc]; [|now apply FA]. eapply finished_mono; [exact M|now apply F].
  - intros x Hx. rewrite map_app. destruct (HX x Hx) as [Hy|Hy]; [|right; apply in_or_app; now right].
    rewrite (st_ins _ _ _ _ S) in Hy. apply in_app_or in Hy as [Hy|Hy]; [now left|right].
    destruct (HI x Hy) as (c & H1 & H2 & _). apply in_or_app. left. rewrite <- H2. apply in_map. now apply SUB.
Qed.

Lemma Gap_all cs cs' w w' : (forall c, In c cs -> finished (w_trace w') c) ->
  (forall c, In c cs' -> In c cs) -> Summary cs' w w' -> Gap cs w w'.
Proof.
  intros F SUB S. rewrite <- (app_nil_r cs). eapply Gap_app; [exact F|exact SUB|exact S|apply moment_refl|].
  exists [], []. split; [reflexivity|]. split; [intros ? []|now left].
Qed.

Lemma Gap_weak cs w w' later : Gap cs w w' -> Gap (cs ++ later) w w'.
Proof. intros (a & b & -> & F & H). exists a, (b ++ later). split; [now rewrite app_assoc|]. auto. Qed.

Lemma res_tt_dec (r : res run_error unit) : r = Ok tt \/ r <> Ok tt.
Proof. destruct r as [[]|e|]; [now left|right; discriminate|right; discriminate]. Qed.

Lemma one_candidate_summary m c remaining w : T c ->
  (w_db w = None <-> usedb = false) -> ~ In ECtrlC (w_trace w) -> AllGood (w_trace w) ->
  is_cand m c -> Disk m (sp_path (c_span c)) (c :: remaining) w ->
  dry_run_ok o (w_trace w) (sp_path (c_span c)) -> since_poll (w_trace w) = [] -> fresh (c_span c) w ->
  let '(w', r) := one_candidate hash16 contents o c w in
  Summary [c] w w' /\ Gap [c] w w' /\ okres r (w_trace w') /\ Disk m (sp_path (c_span c)) remaining w' /\
  (r = Ok tt -> finished (w_trace w') c /\ since_poll (w_trace w') = []).
Proof.
  intros HT U N G IC D DK SP FR. pose proof (one_candidate_spec m c remaining w U N G IC D DK SP FR) as H.
  destruct (one_candidate hash16 contents o c w) as [w' r].
  destruct H as (((ts & rest & I & E & S & HI & NI) & O & C) & D' & _).
  assert (GAP : Gap [c] w w').
  { destruct (res_tt_dec r) as [->|NOK].
    - exists [c], []. split; [reflexivity|]. split.
      + intros x [<-|[]]. right; left. now apply C.
      + intros x Hx. rewrite (st_ins _ _ _ _ S) in Hx. apply in_app_or in Hx as [Hx|Hx]; [now left|right].
        destruct HI as [->|(y & -> & Y & _)]; [destruct Hx|]. destruct Hx as [<-|[]]. left. now symmetry.
    - rewrite (NI NOK) in S. eapply Gap_nil; exact S. }
  split; [|split; [exact GAP|split; [exact O|split; [exact D'|intros X; destruct (C X) as [C1 C2]; split; [right; left; exact C1|exact C2]]]]].
  exists [(c, ts)], I. cbn. rewrite app_nil_r. split; [exact S|].
  split; [intros x [<-|[]]; exists rest; exact E|]. split; [intros x [<-|[]]; exact HT|].
  split; [apply subseq_refl|]. destruct HI as [->|(x & -> & Hx)].
  - split; [constructor|]. split; [intros ? []|intros _ ? ? []].
  - destruct Hx as [Hx Hs]. split; [cbn; rewrite Hx; apply subseq_refl|].
    split; [intros y [<-|[]]; exists c; cbn; auto|]. intros _ y z [<-|[]]. congruence.
Qed.

Lemma candidates_loop_spec m p later fuel : forall spans past w,
  length spans <= fuel -> Rel (spans ++ later) past ->
  (forall c, In c spans -> is_cand m c /\ sp_path (c_span c) = p) ->
  (w_db w = None <-> usedb = false) -> ~ In ECtrlC (w_trace w) -> AllGood (w_trace w) -> Disk m p spans w ->
  dry_run_ok o (w_trace w) p -> since_poll (w_trace w) = [] -> Fresh (spans ++ later) w ->
  let '(w', r) := candidates_loop hash16 contents o fuel spans past w in
  Gap spans w w' /\ Summary spans w w' /\ okres r (w_trace w') /\ Disk m p [] w' /\
  (forall past', r = Ok past' -> Rel later past' /\ (exists b, past = b ++ past') /\
                                 (forall c, In c spans -> finished (w_trace w') c) /\ since_poll (w_trace w') = []).
Proof.
  induction fuel as [|f IH]; intros spans past w L HR HC U N G D DK SP FR; cbn [candidates_loop].
  all: destruct (skip_past_removals spans past) as [[[mm n] spans'] past'] eqn:E.
  all: destruct (skip_past_spec later _ _ _ _ _ _ _ _ _ (Nat.le_refl _) E HR ltac:(discriminate))
      as ((a & A1 & A2 & A3) & (b & B) & R1 & W1 & X).
  all: unfold mbind at 1; pose proof (update_progress_spec mm n w N G W1) as UP.
  all: destruct (update_progress o mm n w) as [w1 r1]; destruct UP as (S1 & O1 & F1 & B1 & _).
  all: assert (SP1 : since_poll (w_trace w1) = []) by (eapply Step_since_nil; eassumption).
  all: assert (FR1 : Fresh (spans' ++ later) w1)
      by (eapply Fresh_step; [exact S1|]; rewrite A1, <- app_assoc in FR; eapply Fresh_drop; exact FR).
  all: assert (D1 : forall l, (forall c, In c l -> In c spans) -> Disk m p l w1)
      by (intros l Hl; eapply Disk_sub; [exact Hl|]; eapply Disk_same; [split; eassumption|exact D]).
  all: destruct r1 as [[]|e|];
    [|split; [eapply Gap_nil; exact S1|split; [now apply Summary_nil|split; [exact O1|split; [apply D1; intros ? []|discriminate]]]]
     |split; [eapply Gap_nil; exact S1|split; [now apply Summary_nil|split; [exact O1|split; [apply D1; intros ? []|discriminate]]]]].
  all: cbn in O1.
  all: destruct spans' as [|c rest];
    [cbn; split; [eapply Gap_nil; exact S1|]; split; [now apply Summary_nil|]; split; [exact O1|]; split; [apply D1; intros ? []|];
     intros past2 E2; injection E2 as <-; split; [exact R1|]; split; [exists b; exact B|]; split; [|exact SP1];
     intros c Hc; left; apply A3; rewrite A1, app_nil_r in Hc; exact Hc|].
  - rewrite A1, app_length in L. cbn in L. lia.
  - assert (HT : T c /\ Rel (rest ++ later) past').
    { destruct past' as [|r rs]; cbn [app] in R1; [now apply R_nil|].
      destruct (R_lt _ _ _ _ R1 X) as (_ & Y & Z). auto. }
    destruct HT as [HT R2].
    assert (Hin : In c spans) by (rewrite A1; apply in_or_app; right; now left).
    destruct (HC c Hin) as [IC PC].
    assert (U1 : w_db w1 = None <-> usedb = false) by (eapply Step_usedb; eassumption).
    unfold mbind at 1.
    assert (Dc : Disk m (sp_path (c_span c)) (c :: rest) w1).
    { rewrite PC. apply D1. intros x Hx. rewrite A1. apply in_or_app. now right. }
    pose proof (one_candidate_summary m c rest w1 HT U1 O1 (st_good _ _ _ _ S1) IC Dc
      ltac:(rewrite PC; eapply dry_run_ok_mono; [apply (st_mom _ _ _ _ S1)|exact DK]) SP1 (Fresh_fresh _ _ _ FR1 HT)) as OC.
    destruct (one_candidate hash16 contents o c w1) as [w2 r2]. rewrite PC in OC.
    destruct OC as (S2 & GAP2 & O2 & D2 & FIN).
    assert (GA : forall l w', moment (w_trace w1) (w_trace w') -> Gap l w1 w' -> Gap (a ++ l) w w').
    { intros l w' MM GG. eapply (Gap_app a []); [| |apply Summary_nil; exact S1|exact MM|exact GG].
      - intros x Hx. left. now apply A3.
      - intros ? []. }
    assert (GE : Gap spans w w2).
    { rewrite A1. apply GA; [apply (Summary_mom _ _ _ S2)|]. change (c :: rest) with ([c] ++ rest). now apply Gap_weak. }
    assert (SUB : subseq (c :: rest) spans) by (rewrite A1; apply subseq_app_r).
    assert (S12 : Summary [c] w w2).
    { change [c] with ([] ++ [c]). eapply Summary_trans; [apply Summary_nil; exact S1|exact S2]. }
    assert (SUBc : subseq [c] spans) by (eapply subseq_trans; [|exact SUB]; apply (subseq_app_l [c])).
    destruct r2 as [[]|e|].
    2:{ split; [exact GE|]. split; [eapply Summary_sub; eassumption|]. split; [exact O2|]. split; [eapply Disk_sub; [|exact D2]; intros ? []|discriminate]. }
    2:{ split; [exact GE|]. split; [eapply Summary_sub; eassumption|]. split; [exact O2|]. split; [eapply Disk_sub; [|exact D2]; intros ? []|discriminate]. }
    assert (L2 : length rest <= f) by (rewrite A1, app_length in L; cbn in L; lia).
    assert (HC2 : forall x, In x rest -> is_cand m x /\ sp_path (c_span x) = p).
    { intros x Hx. apply HC. rewrite A1. apply in_or_app. right. now right. }
    pose proof (IH rest past' w2 L2 R2 HC2 (Summary_usedb _ _ _ S12 U) O2 (Summary_good _ _ _ S12) D2
      (dry_run_ok_mono _ _ _ (Summary_mom _ _ _ S12) DK) (proj2 (FIN eq_refl))
      (Fresh_summary [c] (rest ++ later) w1 w2 FR1 S2)) as H.
    destruct (candidates_loop hash16 contents o f rest past' w2) as [w3 r3].
    destruct H as (GAP3 & S3 & O3 & D3 & FIN3).
    split.
    { rewrite A1. apply GA; [eapply moment_trans; [apply (Summary_mom _ _ _ S2)|apply (Summary_mom _ _ _ S3)]|].
      change (c :: rest) with ([c] ++ rest).
      eapply (Gap_app [c] [c]); [|auto|exact S2|apply (Summary_mom _ _ _ S3)|exact GAP3].
      intros x [<-|[]]. now apply FIN. }
    split; [eapply Summary_sub; [exact SUB|]; change (c :: rest) with ([c] ++ rest); eapply Summary_trans; eassumption|].
    split; [exact O3|]. split; [exact D3|]. intros past2 E2. destruct (FIN3 past2 E2) as (R3 & (b2 & B2) & F3 & SP3).
    split; [exact R3|]. split; [exists (b ++ b2); rewrite B, B2; now rewrite app_assoc|]. split; [|exact SP3].
    intros x Hx. rewrite A1 in Hx. apply in_app_or in Hx as [Hx|[<-|Hx]]; [left; now apply A3| |now apply F3].
    eapply finished_mono; [apply (Summary_mom _ _ _ S3)|now apply FIN].
Qed.

(** Past removals come from the database. *)
Definition PastDb (past : list removal) (w : world) : Prop :=
  forall r, In r past -> exists rows, w_db w = Some rows /\
    In (display_span (rm_span r)) (map (fun x => display_span (rm_span x)) rows).

Lemma PastDb_step past past' w w' R I : (exists b, past = b ++ past') -> Step w w' R I -> PastDb past w -> PastDb past' w'.
Proof.
  intros (b & ->) S H r Hr. destruct (H r) as (rows & E & X); [apply in_or_app; now right|].
  exists (rows ++ I). split; [rewrite (st_db _ _ _ _ S), E; reflexivity|].
  rewrite map_app. apply in_or_app. now left.
Qed.

Lemma PastDb_summary past past' cs w w' : (exists b, past = b ++ past') -> Summary cs w w' -> PastDb past w -> PastDb past' w'.
Proof. intros B (l & I & S & _). eapply PastDb_step; eassumption. Qed.

Lemma skip_present_spec m p later past : forall spans w,
  Rel (spans ++ later) past -> (past = [] \/ exists r, W (Unexpected r)) ->
  PastDb past w -> dry_run_failed o (w_trace w) p ->
  (forall c, In c spans -> is_cand m c /\ sp_path (c_span c) = p) ->
  (w_db w = None <-> usedb = false) -> ~ In ECtrlC (w_trace w) -> AllGood (w_trace w) -> Fresh (spans ++ later) w ->
  let '(w', r) := skip_present contents o spans w in
  Gap spans w w' /\ Summary spans w w' /\ okres r (w_trace w') /\ same_disk w w' /\
  (forall n, r = Ok n -> Rel later past /\ (forall c, In c spans -> skipped_now (w_trace w') c) /\
     (since_poll (w_trace w) = [] -> since_poll (w_trace w') = [])).
Proof.
  induction spans as [|c rest IH]; intros w HR PE PD DF HC U N G FR; cbn [skip_present].
  - cbn. split; [eapply Gap_nil, Step_refl; exact G|].
    split; [now apply Summary_nil, Step_refl|]. split; [exact N|]. split; [split; reflexivity|].
    intros n _. split; [exact HR|]. split; [intros c []|auto].
  - destruct (HC c (or_introl eq_refl)) as [IC PC].
    set (step := (fun w0 : world => match w_db w0 with None => (w0, Ok tt) | Some _ =>
        (t <- source_text_m contents (c_span c);; db_insert o (Removal (c_span c) t Skipped)) w0 end)).
    assert (ST : let '(w1, r1) := step w in Summary [c] w w1 /\ okres r1 (w_trace w1) /\ same_disk w w1 /\
               (r1 = Ok tt -> Rel (rest ++ later) past /\ skipped_now (w_trace w1) c /\
                  (since_poll (w_trace w) = [] -> since_poll (w_trace w1) = [])) /\
               (r1 <> Ok tt -> w1 = w)).
    { unfold step. destruct (w_db w) as [rows|] eqn:DB.
      - unfold mbind. pose proof (source_text_m_spec (c_span c) w) as S.
        destruct (source_text_m contents (c_span c) w) as [w1 [t|e|]].
        2,3: destruct S as (-> & _ & X); split; [now apply Summary_nil, Step_refl|]; (split; [first [apply plain_ok; [eapply plain_err; exact X|exact N]|exact N]|]); split; [split; reflexivity|split; [discriminate|reflexivity]].
        destruct S as (-> & S & _). specialize (S t eq_refl).
        set (rm := Removal (c_span c) t Skipped).
        assert (REC : recorded (w_trace w) rm).
        { exists m, c. split; [exact IC|]. split; [reflexivity|]. split; [exact S|]. cbn. rewrite PC. exact DF. }
        assert (U' : w_db w = None <-> usedb = false) by (rewrite DB; exact U).
        assert (FRc : fresh (rm_span rm) w).
        { destruct PE as [PE|(r & PE)]; [|left; eapply H_skip; eassumption]. subst past.
          apply (Fresh_fresh c (rest ++ later)); [exact FR|]. now apply (R_nil c (rest ++ later)). }
        pose proof (db_insert_spec rm w U' N G REC ltac:(intros X; now destruct X) FRc) as I.
        assert (FRESH : snd (db_insert o rm w) = Ok tt -> ~ In (c_span c) (map rm_span past)).
        { unfold db_insert. rewrite DB. destruct (existsb _ rows) eqn:EX; [discriminate|].
          intros _ Hin. apply in_map_iff in Hin as (r & E1 & E2). destruct (PD r E2) as (rows' & F1 & F2).
          rewrite DB in F1. injection F1 as <-. apply in_map_iff in F2 as (x & F3 & F4).
          assert (Y : existsb (fun x => text_eqb (display_span (rm_span x)) (display_span (rm_span rm))) rows = true).
          { apply existsb_exists. exists x. split; [exact F4|]. apply text_eqb_eq. cbn. rewrite F3. now rewrite E1. }
          congruence. }
        destruct (db_insert o rm w) as [w1 r1]. destruct I as (O1 & F1 & B1 & IOK & IERR). cbn in FRESH.
        destruct r1 as [[]|e|].
        + destruct (R_drop c (rest ++ later) past HR (FRESH eq_refl)) as [HT HR'].
          assert (SK : skipped_now (w_trace w1) c).
          { destruct (IOK eq_refl) as [(Ut & S1 & T1)|(Uf & ->)].
            - split; [rewrite PC; eapply dry_run_failed_mono; [apply (st_mom _ _ _ _ S1)|exact DF]|].
              intros _. exists rm. rewrite T1. repeat split; auto. now left.
            - split; [rewrite PC; exact DF|]. congruence. }
          split; [|split; [exact O1|split; [split; assumption|split; [intros _; split; [exact HR'|split; [exact SK|]]|congruence]]]].
          2:{ destruct (IOK eq_refl) as [(_ & S1 & _)|(Uf & ->)]; [apply (Step_since_nil _ _ _ S1)|auto]. }
          destruct (IOK eq_refl) as [(_ & S1 & _)|(Uf & ->)].
          * exists [], [rm]. split; [exact S1|]. split; [intros ? []|]. split; [intros ? []|]. split; [constructor|].
            split; [cbn; apply subseq_refl|]. split; [intros x [<-|[]]; exists c; cbn; auto|intros _ ? ? _ _ []].
          * now apply Summary_nil, Step_refl.
        + rewrite IERR in * by discriminate. split; [now apply Summary_nil, Step_refl|]. split; [exact O1|]. split; [split; reflexivity|split; [discriminate|reflexivity]].
        + rewrite IERR in * by discriminate. split; [now apply Summary_nil, Step_refl|]. split; [exact O1|]. split; [split; reflexivity|split; [discriminate|reflexivity]].
      - split; [now apply Summary_nil, Step_refl|]. split; [exact N|]. split; [split; reflexivity|]. split; [|reflexivity]. intros _.
        split; [|split; [split; [rewrite PC; exact DF|intros Ut; destruct U as [U _]; rewrite (U eq_refl) in Ut; discriminate]|auto]].
        apply (R_drop c (rest ++ later) past HR). intros Hin. apply in_map_iff in Hin as (r & _ & E2).
        destruct (PD r E2) as (rows & F & _). congruence. }
    unfold mbind at 1. destruct (step w) as [w1 r1]. destruct ST as (S1 & O1 & [F1 B1] & HR1 & NW).
    assert (SUBc : subseq [c] (c :: rest)) by (apply (subseq_app_l [c])).
    destruct r1 as [[]|e|].
    2,3: (split; [rewrite NW by discriminate; eapply Gap_nil, Step_refl; exact G|]; split; [eapply Summary_sub; eassumption|]; split; [exact O1|]; split; [split; assumption|discriminate]).
    unfold mbind.
    assert (PD1 : PastDb past w1) by (eapply PastDb_summary; [exists []; reflexivity|exact S1|exact PD]).
    assert (DF1 : dry_run_failed o (w_trace w1) p) by (eapply dry_run_failed_mono; [apply (Summary_mom _ _ _ S1)|exact DF]).
    assert (HC1 : forall x, In x rest -> is_cand m x /\ sp_path (c_span x) = p) by (intros; apply HC; now right).
    pose proof (IH w1 (proj1 (HR1 eq_refl)) PE PD1 DF1 HC1 (Summary_usedb _ _ _ S1 U) O1 (Summary_good _ _ _ S1)
      (Fresh_summary [c] (rest ++ later) w w1 FR S1)) as H.
    destruct (skip_present contents o rest w1) as [w2 r2]. destruct H as (GAP2 & S2 & O2 & [F2 B2] & HR2).
    assert (GAP : Gap (c :: rest) w w2).
    { change (c :: rest) with ([c] ++ rest). eapply (Gap_app [c] [c]); [|auto|exact S1|apply (Summary_mom _ _ _ S2)|exact GAP2].
      intros x [<-|[]]. right; right. now apply HR1. }
    assert (S12 : Summary (c :: rest) w w2) by (change (c :: rest) with ([c] ++ rest); eapply Summary_trans; eassumption).
    assert (SD : same_disk w w2) by (split; congruence).
    destruct r2 as [k|e|]; cbn; (split; [exact GAP|]; split; [exact S12|]; split; [exact O2|]; split; [exact SD|]).
    + intros ? _. destruct (HR2 k eq_refl) as (Q1 & Q2 & Q3). split; [exact Q1|].
      split; [|intros Z; apply Q3; now apply (HR1 eq_refl)].
      intros x [<-|Hx]; [|now apply Q2]. eapply skipped_now_mono; [apply (Summary_mom _ _ _ S2)|apply (HR1 eq_refl)].
    + discriminate.
    + discriminate.
Qed.

Lemma take_statements_iter m a spans : stm_iter m = a ++ spans ->
  (exists pre, map fst (stm_statement m) = pre ++ take_statements spans) /\
  (forall c, In c spans -> c_kind c = Statement -> In (c_span c) (take_statements spans)).
Proof.
  destruct m as [st me]. unfold stm_iter. cbn [stm_statement stm_method]. revert a.
  induction st as [|[s ts] st IH]; intros a E; cbn in E.
  - assert (NM : forall l a', map (fun e => Cand (fst e) MethodCall (snd e)) l = a' ++ spans ->
       take_statements spans = [] /\ forall c, In c spans -> c_kind c <> Statement).
    { intros l a' E'. assert (Q : forall c, In c spans -> c_kind c = MethodCall).
      { intros c Hc. assert (Hc' : In c (a' ++ spans)) by (apply in_or_app; now right).
        rewrite <- E' in Hc'. apply in_map_iff in Hc' as (e & <- & _). reflexivity. }
      split; [destruct spans as [|c0 r]; [reflexivity|]; cbn; rewrite (Q c0) by (now left); reflexivity|].
      intros c Hc. rewrite (Q c Hc). discriminate. }
    destruct (NM me a E) as [-> Q]. split; [exists []; reflexivity|]. intros c Hc Hk. exfalso. exact (Q c Hc Hk).
  - destruct a as [|x a].
    + cbn in E. subst spans. cbn. split.
      * exists []. cbn. f_equal. clear IH. induction st as [|[s' ts'] st IH]; cbn.
        -- destruct me; reflexivity.
        -- now f_equal.
      * intros c [<-|Hc] Hk; [now left|right]. clear IH.
        apply in_app_or in Hc as [Hc|Hc].
        -- induction st as [|[s' ts'] st IH]; [destruct Hc|]. cbn in *. destruct Hc as [<-|Hc]; [now left|right; auto].
        -- apply in_map_iff in Hc as (e & <- & _). discriminate.
    + cbn in E. injection E as Ex E. destruct (IH a E) as [(pre & P) Q].
      split; [exists (s :: pre); cbn; now f_equal|exact Q].
Qed.

Lemma one_file_spec m p later past w :
  In (p, m) files -> (forall c, In c (stm_iter m) -> sp_path (c_span c) = p) ->
  Rel (stm_iter m ++ later) past -> PastDb past w ->
  (w_db w = None <-> usedb = false) -> ~ In ECtrlC (w_trace w) -> AllGood (w_trace w) ->
  w_ib w = None -> (forall q, w_fs w q = fs0 q) ->
  since_poll (w_trace w) = [] -> Fresh (stm_iter m ++ later) w ->
  let '(w', r) := one_file hash16 contents o p m past w in
  Gap (stm_iter m) w w' /\ Summary (stm_iter m) w w' /\ okres r (w_trace w') /\ w_ib w' = None /\ (forall q, w_fs w' q = fs0 q) /\
  (forall past', r = Ok past' -> Rel later past' /\ (exists b, past = b ++ past') /\
                                 (forall c, In c (stm_iter m) -> finished (w_trace w') c) /\ since_poll (w_trace w') = []).
Proof.
  intros IF HP HR PD U N G IB FS SP FR. unfold one_file.
  destruct (skip_past_removals (stm_iter m) past) as [[[mm n] spans] past'] eqn:E.
  destruct (skip_past_spec later _ _ _ _ _ _ _ _ _ (Nat.le_refl _) E HR ltac:(discriminate))
      as ((a & A1 & A2 & A3) & (b & B) & R1 & W1 & X).
  unfold mbind at 1; pose proof (update_progress_spec mm n w N G W1) as UP.
  destruct (update_progress o mm n w) as [w1 r1]; destruct UP as (S1 & O1 & F1 & B1 & _).
  assert (IB1 : w_ib w1 = None) by congruence.
  assert (FS1 : forall q, w_fs w1 q = fs0 q) by (intros q; rewrite F1; apply FS).
  destruct r1 as [[]|e|].
  2,3: (split; [eapply Gap_nil; exact S1|split; [now apply Summary_nil|split; [exact O1|split; [exact IB1|split; [exact FS1|discriminate]]]]]).
  cbn in O1. destruct spans as [|c0 cs].
  { cbn. split; [eapply Gap_nil; exact S1|]. split; [now apply Summary_nil|]. split; [exact O1|]. split; [exact IB1|]. split; [exact FS1|].
    intros past2 E2. injection E2 as <-. split; [exact R1|]. split; [exists b; exact B|].
    split; [|eapply Step_since_nil; eassumption].
    intros c Hc. left. apply A3. rewrite A1, app_nil_r in Hc. exact Hc. }
  set (spans := c0 :: cs) in *.
  assert (HC : forall c, In c spans -> is_cand m c /\ sp_path (c_span c) = p).
  { intros c Hc. assert (Hm : In c (stm_iter m)) by (rewrite A1; apply in_or_app; now right).
    split; [split; [rewrite (HP c Hm); exact IF|exact Hm]|now apply HP]. }
  assert (SUB : subseq spans (stm_iter m)) by (rewrite A1; apply subseq_app_r).
  unfold mbind at 1. set (w2 := log (EDryRun p (w_fs w1)) w1). cbv zeta.
  assert (S2 : Step w w2 [] []).
  { eapply Step_nil_r; [exact S1|]. eapply Step_log with (e := EDryRun p (w_fs w1)); try reflexivity; [apply (st_good _ _ _ _ S1)|].
    split; [now left|exact FS1]. }
  assert (N2 : ~ In ECtrlC (w_trace w2)) by (cbn; intros [C|C]; [discriminate|auto]).
  assert (U2 : w_db w2 = None <-> usedb = false) by (eapply Step_usedb; eassumption).
  assert (PD2 : PastDb past' w2) by (eapply PastDb_step; [exists b; exact B|exact S2|exact PD]).
  assert (SP2 : since_poll (w_trace w2) = []) by (eapply Step_since_nil; eassumption).
  assert (FR2 : Fresh (spans ++ later) w2)
    by (eapply Fresh_step; [exact S2|]; rewrite A1, <- app_assoc in FR; eapply Fresh_drop; exact FR).
  assert (PE : past' = [] \/ exists r, W (Unexpected r)).
  { destruct past' as [|r rs]; [now left|right]. exists r. now apply (R_lt c0 (cs ++ later) r rs R1). }
  assert (DRF : forall u, o_dry_run o (w_trace w2) p = Err u -> dry_run_failed o (w_trace w2) p).
  { intros u Hu. exists (w_fs w1), (w_trace w1), u. split; [apply moment_refl|exact Hu]. }
  assert (OUT : forall w' (r : res run_error (list removal)), Step w w' [] [] -> okres r (w_trace w') -> w_ib w' = None ->
    (forall q, w_fs w' q = fs0 q) -> (forall x, r <> Ok x) ->
    Gap (stm_iter m) w w' /\ Summary (stm_iter m) w w' /\ okres r (w_trace w') /\ w_ib w' = None /\ (forall q, w_fs w' q = fs0 q) /\
    (forall past', r = Ok past' -> Rel later past' /\ (exists b, past = b ++ past') /\ (forall c, In c (stm_iter m) -> finished (w_trace w') c) /\ since_poll (w_trace w') = [])).
  { intros w' r HS HO HI HF HX. split; [eapply Gap_nil; exact HS|]. split; [now apply Summary_nil|]. repeat split; auto; exfalso; eapply HX; eassumption. }
  destruct (o_dry_run o (w_trace w2) p) as [[]|u|] eqn:DR.
  - (* dry run succeeded *)
    unfold mbind at 1. cbn [ret]. unfold mbind at 1.
    pose proof (check_ctrlc_spec w2 N2 (st_good _ _ _ _ S2)) as C.
    destruct (check_ctrlc o w2) as [w3 r3]. destruct C as (S3 & O3 & F3 & B3 & CT & NP).
    assert (S23 : Step w w3 [] []) by (eapply Step_nil_r; eassumption).
    assert (IB3 : w_ib w3 = None) by (rewrite B3; exact IB1).
    assert (FS3 : forall q, w_fs w3 q = fs0 q) by (intros q; rewrite F3; apply FS1).
    destruct r3 as [[]|e|]; [|apply OUT; auto; discriminate|congruence].
    destruct (CT eq_refl) as (T3 & D3). pose proof (O3 : ~ In ECtrlC (w_trace w3)) as N3.
    assert (U3 : w_db w3 = None <-> usedb = false) by (rewrite D3; exact U2).
    destruct (take_statements_iter m a spans A1) as [(pre & PRE) TS].
    unfold finally, mbind.
    pose proof (instrument_statements_spec m p pre spans w3 U3 N3 (st_good _ _ _ _ S3) IB3 FS3 PRE TS) as IS.
    destruct (instrument_statements contents o p spans w3) as [w4 r4].
    destruct IS as (S4 & O4 & D4).
    assert (S34 : Step w w4 [] []) by (eapply Step_nil_r; eassumption).
    assert (DROP : forall w' l, Disk m p l w' -> AllGood (w_trace w') ->
       Step w' (drop_ib w') [] [] /\ w_ib (drop_ib w') = None /\ (forall q, w_fs (drop_ib w') q = fs0 q) /\
       (forall A (r : res run_error A), okres r (w_trace w') -> okres r (w_trace (drop_ib w')))).
    { intros w' l DD GG. unfold drop_ib. unfold Disk in DD. destruct (w_ib w') as [[p' t]|] eqn:EI.
      - destruct DD as (-> & -> & Q & _). split.
        { eapply Step_log with (e := ERestore p); try reflexivity; [exact GG|split; [right; eauto|exact I]]. }
        split; [reflexivity|]. split; [cbn [w_fs set_ib]; now apply restore_disk|].
        intros A r HO. apply (okres_restore r w' (p, fs0 p)) in HO. exact HO.
      - split; [now apply Step_refl|]. split; [exact EI|]. split; [exact DD|]. auto. }
    destruct r4 as [bb|e|].
    2,3: (destruct (DROP w4 spans D4 (st_good _ _ _ _ S4)) as (P1 & P2 & P3 & P4); apply OUT; auto; [eapply Step_nil_r; eassumption|discriminate]).
    cbn in O4.
    assert (DK4 : dry_run_ok o (w_trace w4) p).
    { exists (w_fs w1), (w_trace w1). split; [|exact DR].
      eapply moment_trans; [apply (st_mom _ _ _ _ S3)|apply (st_mom _ _ _ _ S4)]. }
    pose proof (candidates_loop_spec m p later (length spans) spans past' w4 (Nat.le_refl _) R1 HC
       (Step_usedb _ _ _ _ S34 U) O4 (st_good _ _ _ _ S4) D4 DK4 (Step_since_nil _ _ _ S34 SP)
       (Fresh_step _ _ _ _ S4 (Fresh_step _ _ _ _ S3 FR2))) as H.
    destruct (candidates_loop hash16 contents o (length spans) spans past' w4) as [w5 r5].
    destruct H as (GAP5 & S5 & O5 & D5 & FIN).
    destruct (DROP w5 [] D5 (Summary_good _ _ _ S5)) as (P1 & P2 & P3 & P4).
    split.
    { rewrite A1. eapply (Gap_app a []); [|intros ? []|apply Summary_nil; exact S34| |].
      - intros x Hx. left. now apply A3.
      - eapply moment_trans; [apply (Summary_mom _ _ _ S5)|apply (st_mom _ _ _ _ P1)].
      - destruct GAP5 as (ga & gb & GE & GF & GX). exists ga, gb. split; [exact GE|].
        split; [intros x Hx; eapply finished_mono; [apply (st_mom _ _ _ _ P1)|now apply GF]|].
        intros x Hx. rewrite (st_ins _ _ _ _ P1), app_nil_r in Hx. now apply GX. }
    split; [|split; [now apply P4|split; [exact P2|split; [exact P3|]]]].
    + eapply Summary_sub; [exact SUB|]. replace spans with ([] ++ spans ++ []) by now rewrite app_nil_r.
      eapply Summary_trans; [apply Summary_nil; exact S34|]. eapply Summary_trans; [exact S5|]. apply Summary_nil; exact P1.
    + intros past2 E2. destruct (FIN past2 E2) as (Q1 & (b2 & Q2) & Q3 & Q4). split; [exact Q1|].
      split; [exists (b ++ b2); rewrite B, Q2; now rewrite app_assoc|]. split; [|eapply Step_since_nil; eassumption].
      intros c Hc. rewrite A1 in Hc. apply in_app_or in Hc as [Hc|Hc]; [left; now apply A3|].
      eapply finished_mono; [apply (st_mom _ _ _ _ P1)|now apply Q3].
  - (* dry run failed *)
    unfold mbind at 1.
    pose proof (warn_spec DryRunFailed (EWarn DryRunFailed) w2 N2 (st_good _ _ _ _ S2) I) as WN.
    destruct (warn o DryRunFailed (EWarn DryRunFailed) w2) as [w3 r3]. destruct WN as (S3 & O3 & F3 & B3 & _).
    assert (S23 : Step w w3 [] []) by (eapply Step_nil_r; eassumption).
    assert (IB3 : w_ib w3 = None) by (rewrite B3; exact IB1).
    assert (FS3 : forall q, w_fs w3 q = fs0 q) by (intros q; rewrite F3; apply FS1).
    destruct r3 as [u3|e|]; [|apply OUT; auto; discriminate|apply OUT; auto; discriminate].
    cbn in O3. unfold mbind at 1.
    pose proof (check_ctrlc_spec w3 O3 (st_good _ _ _ _ S3)) as C.
    destruct (check_ctrlc o w3) as [w4 r4]. destruct C as (S4 & O4 & F4 & B4 & CT & NP).
    assert (S34 : Step w w4 [] []) by (eapply Step_nil_r; eassumption).
    assert (IB4 : w_ib w4 = None) by (rewrite B4; exact IB3).
    assert (FS4 : forall q, w_fs w4 q = fs0 q) by (intros q; rewrite F4; apply FS3).
    destruct r4 as [[]|e|]; [|apply OUT; auto; discriminate|congruence].
    destruct (CT eq_refl) as (T4 & D4). pose proof (O4 : ~ In ECtrlC (w_trace w4)) as N4.
    assert (M24 : moment (w_trace w2) (w_trace w4)) by (eapply moment_trans; [apply (st_mom _ _ _ _ S3)|apply (st_mom _ _ _ _ S4)]).
    assert (PD4 : PastDb past' w4).
    { eapply PastDb_step with (past := past'); [exists []; reflexivity|exact S4|].
      eapply PastDb_step with (past := past'); [exists []; reflexivity|exact S3|exact PD2]. }
    assert (DF4 : dry_run_failed o (w_trace w4) p) by (eapply dry_run_failed_mono; [exact M24|now apply (DRF u)]).
    unfold mbind.
    pose proof (skip_present_spec m p later past' spans w4 R1 PE PD4 DF4 HC (Step_usedb _ _ _ _ S34 U) N4 (st_good _ _ _ _ S4)
      (Fresh_step _ _ _ _ S4 (Fresh_step _ _ _ _ S3 FR2))) as SKP.
    destruct (skip_present contents o spans w4) as [w5 r5]. destruct SKP as (GAP5 & S5 & O5 & [F5 B5] & HR5).
    assert (GAP : Gap (stm_iter m) w w5).
    { rewrite A1. eapply (Gap_app a []); [|intros ? []|apply Summary_nil; exact S34|apply (Summary_mom _ _ _ S5)|exact GAP5].
      intros x Hx. left. now apply A3. }
    assert (IB5 : w_ib w5 = None) by congruence.
    assert (FS5 : forall q, w_fs w5 q = fs0 q) by (intros q; rewrite F5; apply FS4).
    assert (S05 : Summary (stm_iter m) w w5).
    { eapply Summary_sub; [exact SUB|]. change spans with ([] ++ spans). eapply Summary_trans; [apply Summary_nil; exact S34|exact S5]. }
    destruct r5 as [k|e|].
    2,3: (split; [exact GAP|split; [exact S05|split; [exact O5|split; [exact IB5|split; [exact FS5|discriminate]]]]]).
    cbn in O5.
    pose proof (update_progress_spec None k w5 O5 (Summary_good _ _ _ S5) ltac:(discriminate)) as UP5.
    destruct (update_progress o None k w5) as [w6 r6]. destruct UP5 as (S6 & O6 & F6 & B6 & T6).
    destruct (T6 eq_refl) as [T6' ->]. cbn [ret].
    split.
    { destruct GAP as (ga & gb & GE & GF & GX). exists ga, gb. split; [exact GE|]. rewrite T6'. split; [exact GF|exact GX]. }
    split; [rewrite <- (app_nil_r (stm_iter m)); eapply Summary_trans; [exact S05|apply Summary_nil; exact S6]|].
    split; [exact O6|]. split; [congruence|]. split; [intros q; rewrite F6; apply FS5|].
    intros past2 E2. injection E2 as <-. split; [now apply (HR5 k)|]. split; [exists b; exact B|].
    split; [|rewrite T6'; apply (HR5 k eq_refl); apply (Step_since_nil _ _ _ S34 SP)].
    intros c Hc. rewrite A1 in Hc. apply in_app_or in Hc as [Hc|Hc]; [left; now apply A3|].
    right. right. rewrite T6'. now apply (HR5 k eq_refl).
  - cbn [panic]. apply OUT; auto. discriminate.
Qed.

Lemma run_spec : forall fl past w,
  (forall f, In f fl -> In f files) -> paths_ok fl ->
  Rel (all_cands fl) past -> PastDb past w ->
  (w_db w = None <-> usedb = false) -> ~ In ECtrlC (w_trace w) -> AllGood (w_trace w) ->
  w_ib w = None -> (forall q, w_fs w q = fs0 q) ->
  since_poll (w_trace w) = [] -> Fresh (all_cands fl) w ->
  let '(w', r) := run hash16 contents o fl past w in
  Gap (all_cands fl) w w' /\ Summary (all_cands fl) w w' /\ okres r (w_trace w') /\ w_ib w' = None /\ (forall q, w_fs w' q = fs0 q) /\
  (r = Ok tt -> (forall c, In c (all_cands fl) -> finished (w_trace w') c) /\ since_poll (w_trace w') = []).
Proof.
  induction fl as [|[p m] fl IH]; intros past w HI HP HR PD U N G IB FS SP FR; cbn [run].
  - cbn. split; [eapply Gap_nil, Step_refl; exact G|]. split; [now apply Summary_nil, Step_refl|]. repeat split; auto. intros c [].
  - unfold mbind. cbn [all_cands flat_map snd] in HR. fold (all_cands fl) in HR.
    pose proof (one_file_spec m p (all_cands fl) past w (HI _ (or_introl eq_refl))
      (fun c Hc => HP p m c (or_introl eq_refl) Hc) HR PD U N G IB FS SP FR) as H.
    destruct (one_file hash16 contents o p m past w) as [w1 r1].
    destruct H as (GAP1 & S1 & O1 & IB1 & FS1 & FIN1).
    assert (SUB : subseq (stm_iter m) (all_cands ((p, m) :: fl))) by apply subseq_app_l.
    destruct r1 as [past1|e|].
    2,3: (split; [cbn [all_cands flat_map snd]; now apply Gap_weak|split; [eapply Summary_sub; eassumption|split; [exact O1|split; [exact IB1|split; [exact FS1|discriminate]]]]]).
    destruct (FIN1 past1 eq_refl) as (R1 & B1 & F1 & SP1). cbn in O1.
    pose proof (IH past1 w1 (fun f Hf => HI f (or_intror Hf)) (fun p' m' c' H1 H2 => HP p' m' c' (or_intror H1) H2)
      R1 (PastDb_summary _ _ _ _ _ B1 S1 PD) (Summary_usedb _ _ _ S1 U) O1 (Summary_good _ _ _ S1) IB1 FS1 SP1 (Fresh_summary _ _ _ _ FR S1)) as H.
    destruct (run hash16 contents o fl past1 w1) as [w2 r2].
    destruct H as (GAP2 & S2 & O2 & IB2 & FS2 & FIN2).
    split; [cbn [all_cands flat_map snd]; eapply (Gap_app (stm_iter m) (stm_iter m)); [exact F1|auto|exact S1|apply (Summary_mom _ _ _ S2)|exact GAP2]|].
    split; [cbn [all_cands flat_map snd]; eapply Summary_trans; eassumption|].
    split; [exact O2|]. split; [exact IB2|]. split; [exact FS2|].
    intros E. split; [|now apply FIN2]. intros c Hc. cbn [all_cands flat_map snd] in Hc. apply in_app_or in Hc as [Hc|Hc]; [|now apply FIN2].
    eapply finished_mono; [apply (Summary_mom _ _ _ S2)|now apply F1].
Qed.

End Inv.
