(** The primary key of the table keeps spans apart, whatever the order of candidates. *)
From Coq Require Permutation.
From Verif Require Import Base M_Text S_Text L_Text M_Rewriter M_Span S_Span L_Span M_Instr M_Run S_Run L_Run L_RunFinal L_Resume L_History.

Definition keys (rows : list removal) : list text := map (fun x => display_span (rm_span x)) rows.
Definition U (w : world) : Prop := match w_db w with None => True | Some rows => NoDup (keys rows) end.
Definition Keeps {A} (m : M A) : Prop := forall w, U w -> U (fst (m w)).

Lemma keeps_ret {A} (a : A) : Keeps (ret a). Proof. intros w H. exact H. Qed.
Lemma keeps_fail {A} e : Keeps (@fail A e). Proof. intros w H. exact H. Qed.
Lemma keeps_panic {A} : Keeps (@panic A). Proof. intros w H. exact H. Qed.
Lemma keeps_bind {A B} (m : M A) (f : A -> M B) : Keeps m -> (forall a, Keeps (f a)) -> Keeps (mbind m f).
Proof.
  intros Hm Hf w H. unfold mbind. specialize (Hm w H). destruct (m w) as [w' [a|e|]]; cbn in *; [apply Hf, Hm|exact Hm|exact Hm].
Qed.
Lemma keeps_finally {A} (m : M A) cl : Keeps m -> (forall w, w_db (cl w) = w_db w) -> Keeps (finally m cl).
Proof.
  intros Hm Hc w H. unfold finally. specialize (Hm w H). destruct (m w) as [w' r]. cbn in *. unfold U. rewrite Hc. exact Hm.
Qed.
Lemma drop_ib_db w : w_db (drop_ib w) = w_db w.
Proof. unfold drop_ib. destruct (w_ib w); reflexivity. Qed.

Lemma NoDup_app_one {A} (l : list A) x : NoDup l -> ~ In x l -> NoDup (l ++ [x]).
Proof. intros N I. apply (Permutation.Permutation_NoDup (l := x :: l)); [apply Permutation.Permutation_cons_append|]. constructor; assumption. Qed.

Section Unique.
Context (hash16 : text -> text) (contents : path -> text) (o : oracle).
Lemma keeps_lift {A} (r : res unit A) : Keeps (lift r).
Proof. intros w H. destruct r; exact H. Qed.
Lemma keeps_event e : Keeps (emit_event e). Proof. intros w H. exact H. Qed.
Lemma keeps_warn x e : Keeps (warn o x e).
Proof. apply keeps_bind; [apply keeps_event|]. intros _. destruct (o_denied o x); [apply keeps_fail|apply keeps_ret]. Qed.
Lemma keeps_ctrlc : Keeps (check_ctrlc o).
Proof. intros w H. unfold check_ctrlc. destruct (_ || _); exact H. Qed.
Lemma keeps_backup p : Keeps (backup_new o p).
Proof. intros w H. unfold backup_new. destruct (o_backup_ok _ _ _); exact H. Qed.
Lemma keeps_write p t : Keeps (write_file o p t).
Proof. intros w H. unfold write_file. destruct (o_write _ _ _); exact H. Qed.
Lemma keeps_progress mm n : Keeps (update_progress o mm n).
Proof. apply keeps_bind; [destruct mm; [apply keeps_warn|apply keeps_ret]|]. intros _ w H. exact H. Qed.
Lemma keeps_insert r : Keeps (db_insert o r).
Proof.
  intros w H. unfold db_insert. destruct (w_db w) as [rows|] eqn:E; [|exact H]. destruct (existsb _ rows) eqn:X; [exact H|].
  destruct (o_db_ok _ _); [|exact H]. unfold U in *. cbn. rewrite E in H. unfold keys. rewrite map_app. cbn [map].
  apply NoDup_app_one; [exact H|]. intros I. unfold keys in I. apply in_map_iff in I as [x [I1 I2]].
  assert (Y : existsb (fun x => text_eqb (display_span (rm_span x)) (display_span (rm_span r))) rows = true).
  { apply existsb_exists. exists x. split; [exact I2|]. rewrite I1. apply text_eqb_refl. }
  congruence.
Qed.
Lemma keeps_source s : Keeps (source_text_m contents s).
Proof. unfold source_text_m. destruct (source_text _ _); [apply keeps_ret|apply keeps_fail|apply keeps_panic]. Qed.
Lemma keeps_skip_present l : Keeps (skip_present contents o l).
Proof.
  induction l as [|c l IH]; [apply keeps_ret|]. cbn. apply keeps_bind.
  - intros w H. destruct (w_db w) as [rows|]; [|exact H]. revert w H. change (Keeps (t <- source_text_m contents (c_span c) ;; db_insert o (Removal (c_span c) t Skipped))).
    apply keeps_bind; [apply keeps_source|]. intros t. apply keeps_insert.
  - intros _. apply keeps_bind; [exact IH|]. intros n. apply keeps_ret.
Qed.
Lemma keeps_instrument_write p l : Keeps (instrument_and_write contents o p l).
Proof.
  unfold instrument_and_write. apply keeps_bind; [intros w; apply keeps_lift|]. intros ex. apply keeps_bind; [apply keeps_lift|]. intros _.
  destruct (instrument _ _ _ _ _ _); [apply keeps_write|apply keeps_panic].
Qed.
Lemma keeps_instrument p l : Keeps (instrument_statements contents o p l).
Proof.
  intros w H. unfold instrument_statements. pose proof (keeps_backup p w H) as B. destruct (backup_new o p w) as [w1 [b|e|]]; try exact B.
  assert (K : Keeps (instrument_and_write contents o p l ;; (fun w => (log (EBuild p (w_fs w)) w, Ok (o_build o (w_trace w) p))))).
  { apply keeps_bind; [apply keeps_instrument_write|]. intros _ v V. exact V. }
  specialize (K w1 B). destruct (mbind _ _ w1) as [w2 [[[]|e|]|e|]]; try exact K.
  pose proof (keeps_warn InstrumentationNonbuildable (EWarn InstrumentationNonbuildable) w2 K) as W.
  destruct (warn o _ _ w2) as [w3 [[]|e'|]]; exact W.
Qed.
Lemma keeps_removal {A} s (k : M A) : Keeps k -> Keeps (with_removal contents o s k).
Proof.
  intros K w H. unfold with_removal. pose proof (keeps_backup (sp_path s) w H) as B. destruct (backup_new o _ w) as [w1 [b|e|]]; try exact B.
  revert w1 B. change (Keeps (finally (match remove_text (contents (sp_path s)) s with None => panic | Some (_, t) => write_file o (sp_path s) t ;; k end) (restore b))).
  apply keeps_finally; [|reflexivity]. destruct (remove_text _ _) as [[x t]|]; [|apply keeps_panic].
  apply keeps_bind; [apply keeps_write|]. intros _. exact K.
Qed.
Lemma keeps_test e s t : Keeps (run_test hash16 o e s t).
Proof.
  intros w H. unfold run_test. cbv zeta. destruct (o_exec _ _ _ _) as [[[]|]|x|]; try exact H; [|destruct e; exact H].
  destruct (o_perform _ _ _ _) as [[]|x|]; exact H.
Qed.
Lemma keeps_fold e s l : forall acc, Keeps (fold_tests hash16 o e s acc l).
Proof.
  induction l as [|t l IH]; intros acc; [apply keeps_ret|]. cbn. apply keeps_bind; [|intros a; apply IH].
  destruct acc as [[]|]; try apply keeps_ret; apply keeps_test.
Qed.
Lemma keeps_candidate e c t : Keeps (test_candidate hash16 o e c t).
Proof.
  apply keeps_bind; [apply keeps_fold|]. intros out. apply keeps_bind; [apply keeps_ctrlc|]. intros _. apply keeps_bind; [|intros _; apply keeps_progress].
  destruct out; [|apply keeps_ret]. apply keeps_bind; [apply keeps_insert|]. intros _. apply keeps_event.
Qed.
Lemma keeps_one c : Keeps (one_candidate hash16 contents o c).
Proof.
  apply keeps_bind.
  - intros w H. cbn. unfold U in *. destruct (c_kind c); [exact H|]. rewrite drop_ib_db. exact H.
  - intros _. apply keeps_bind; [apply keeps_source|]. intros t w H. cbv zeta.
    destruct (match w_ib w with None => true | Some _ => _ end); [apply keeps_removal; [apply keeps_candidate|exact H]|apply keeps_candidate, H].
Qed.
Lemma keeps_loop f : forall spans past, Keeps (candidates_loop hash16 contents o f spans past).
Proof.
  induction f as [|f IH]; intros spans past; cbn; destruct (skip_past_removals spans past) as [[[mm n] sp'] past'];
    (apply keeps_bind; [apply keeps_progress|]; intros _; destruct sp'; [apply keeps_ret|]; apply keeps_bind; [apply keeps_one|]; intros _); [apply keeps_ret|apply IH].
Qed.
Lemma keeps_file p m past : Keeps (one_file hash16 contents o p m past).
Proof.
  unfold one_file. destruct (skip_past_removals _ _) as [[[mm n] sp'] past']. apply keeps_bind; [apply keeps_progress|]. intros _.
  destruct sp'; [apply keeps_ret|]. apply keeps_bind; [intros w H; exact H|]. intros [[]|e|]; [| |apply keeps_panic].
  - apply keeps_bind; [apply keeps_ret|]. intros _. apply keeps_bind; [apply keeps_ctrlc|]. intros _. apply keeps_finally; [|apply drop_ib_db].
    apply keeps_bind; [apply keeps_instrument|]. intros _. apply keeps_loop.
  - apply keeps_bind; [apply keeps_warn|]. intros _. apply keeps_bind; [apply keeps_ctrlc|]. intros _.
    apply keeps_bind; [apply keeps_skip_present|]. intros k. apply keeps_bind; [apply keeps_progress|]. intros _. apply keeps_ret.
Qed.
Lemma keeps_run files : forall past, Keeps (run hash16 contents o files past).
Proof.
  induction files as [|[p m] files IH]; intros past; [apply keeps_ret|]. cbn. apply keeps_bind; [apply keeps_file|]. intros past'. apply IH.
Qed.
End Unique.

Lemma unique_moment hash16 contents o files fs rows tr : paths_ok files -> NoDup (keys rows) ->
  moment tr (w_trace (fst (run_from hash16 contents o files fs (Some rows)))) -> NoDup (keys (rows ++ inserts tr)).
Proof.
  intros P N M. pose proof (keeps_run hash16 contents o files (past_of (Some rows)) (start fs (Some rows)) N) as K.
  pose proof (db_after hash16 contents o files fs rows P) as W. cbv zeta in W. unfold run_from in *. unfold U in K. rewrite W in K.
  destruct (inserts_moment _ _ M) as [more E]. rewrite E, app_assoc in K. unfold keys in K. rewrite map_app in K.
  eapply subseq_nodup; [apply subseq_app_l|exact K].
Qed.
