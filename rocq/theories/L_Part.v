(** Lemmas for C84: a run on all source files and a run on some of them. *)
From Verif Require Import Base M_Text M_Rewriter M_Span M_Instr M_Run S_Run L_Run S_Part.
From Coq Require Import List.
Local Open Scope list_scope.

Lemma share_cons Q e tr : share Q (e :: tr) = if concerns Q e then alone e :: share Q tr else share Q tr.
Proof. unfold share. cbn [filter]. destruct (concerns Q e); reflexivity. Qed.
Lemma share_share Q p tr : Q p = true -> share (path_eqb p) (share Q tr) = share (path_eqb p) tr.
Proof.
  intros Qp. induction tr as [|e tr IH]; [reflexivity|]. rewrite !share_cons.
  assert (A : about_file (alone e) = about_file e) by (destruct e; reflexivity). assert (AA : alone (alone e) = alone e) by (destruct e; reflexivity).
  destruct (concerns Q e) eqn:C.
  - rewrite share_cons, IH, AA. unfold concerns. rewrite A. reflexivity.
  - rewrite IH. unfold concerns in *. destruct (about_file e) as [q|]; [|reflexivity]. destruct (path_eqb p q) eqn:P; [|reflexivity]. apply path_eqb_eq in P. congruence.
Qed.

Section Sim.
Context (hash16 : text -> text) (contents : path -> text) (o : oracle) (Q : path -> bool).
Hypothesis OW : each_on_its_own o.
Hypothesis UN : undisturbed o.

(** ** Files that are not chosen: nothing changes for those that are. *)
Definition rows_in (d : option (list removal)) : option (list removal) := match d with Some rows => Some (removals_of Q rows) | None => None end.
Definition calm (w : world) : Prop := w_ctrlc w = false /\ match w_ib w with Some b => Q (fst b) = false | None => True end.
Definition same (w w1 : world) : Prop :=
  share Q (w_trace w1) = share Q (w_trace w) /\ (forall q, Q q = true -> w_fs w1 q = w_fs w q) /\ rows_in (w_db w1) = rows_in (w_db w).
Definition quiet {A} (f : M A) : Prop := forall w a, calm w -> snd (f w) = Ok a -> calm (fst (f w)) /\ same w (fst (f w)).
Lemma same_refl w : same w w. Proof. repeat split. Qed.
Lemma same_trans w w1 w2 : same w w1 -> same w1 w2 -> same w w2.
Proof. intros [A [B C]] [A' [B' C']]. split; [congruence|]. split; [|congruence]. intros q H. rewrite B', B by exact H. reflexivity. Qed.
Lemma q_bind {A B} (f : M A) (g : A -> M B) : quiet f -> (forall a, quiet (g a)) -> quiet (mbind f g).
Proof.
  intros F G w b C. unfold mbind. specialize (F w). destruct (f w) as [w1 [a|e|]]; cbn [fst snd] in *; try discriminate. intros E.
  destruct (F a C eq_refl) as [C1 S1]. destruct (G a w1 b C1 E) as [C2 S2]. split; [exact C2|]. exact (same_trans _ _ _ S1 S2).
Qed.
Lemma q_ret {A} (a : A) : quiet (ret a). Proof. intros w b C _. split; [exact C|apply same_refl]. Qed.
Lemma q_fail {A} e : quiet (@fail A e). Proof. intros w b C E. discriminate. Qed.
Lemma q_panic {A} : quiet (@panic A). Proof. intros w b C E. discriminate. Qed.
Lemma q_lift {A} (r : res unit A) : quiet (lift r). Proof. destruct r; intros w b C E; try discriminate. split; [exact C|apply same_refl]. Qed.
Lemma same_log e w : concerns Q e = false -> same w (log e w).
Proof. intros E. split; [|split; reflexivity]. unfold share, log. cbn. rewrite E. reflexivity. Qed.
Lemma calm_log e w : calm w -> calm (log e w). Proof. exact (fun H => H). Qed.
Lemma q_event e : concerns Q e = false -> quiet (emit_event e).
Proof. intros E w b C _. split; [exact C|apply same_log, E]. Qed.
Lemma q_warn k e : concerns Q e = false -> quiet (warn o k e).
Proof. intros E. unfold warn. apply q_bind; [apply q_event, E|]. intros _. destruct (o_denied o k); [apply q_fail|apply q_ret]. Qed.
Lemma q_progress mm n : quiet (update_progress o mm n).
Proof. unfold update_progress. apply q_bind; [destruct mm; [apply q_warn; reflexivity|apply q_ret]|]. intros _ w b C _. split; [exact C|]. repeat split. Qed.
Lemma q_ctrlc : quiet (check_ctrlc o).
Proof. intros w b [C I] E. unfold check_ctrlc in *. rewrite C, (proj1 UN) in *. cbn in *. split; [split; [reflexivity|exact I]|]. repeat split. Qed.
Lemma same_put e p t w : Q p = false -> concerns Q e = false -> same w (log e (set_fs (put_file p t (w_fs w)) w)).
Proof.
  intros P E. apply same_trans with (set_fs (put_file p t (w_fs w)) w); [|apply same_log, E]. split; [reflexivity|]. split; [|reflexivity]. intros q H. cbn. unfold put_file.
  destruct (path_eqb p q) eqn:X; [|reflexivity]. apply path_eqb_eq in X. congruence.
Qed.
Lemma same_restore b w : Q (fst b) = false -> same w (restore b w).
Proof. intros P. apply same_put; [exact P|]. unfold concerns. cbn. exact P. Qed.
Lemma calm_restore b w : calm w -> calm (restore b w). Proof. exact (fun H => H). Qed.
Lemma drop_calm w : calm w -> calm (drop_ib w) /\ same w (drop_ib w).
Proof.
  intros [C I]. unfold drop_ib. destruct (w_ib w) as [b|] eqn:B; [|split; [split; [exact C|rewrite B; exact Logic.I]|apply same_refl]].
  split; [split; [exact C|exact Logic.I]|]. apply same_trans with (restore b w); [apply same_restore, I|]. repeat split.
Qed.
Lemma q_finally {A} (f : M A) c : (forall w, calm w -> calm (c w) /\ same w (c w)) -> quiet f -> quiet (finally f c).
Proof.
  intros K F w a C. unfold finally. specialize (F w). destruct (f w) as [w1 r]; cbn [fst snd] in *. intros ->. destruct (F a C eq_refl) as [C1 S1].
  destruct (K w1 C1) as [C2 S2]. split; [exact C2|exact (same_trans _ _ _ S1 S2)].
Qed.
Lemma q_text s : quiet (source_text_m contents s).
Proof. unfold source_text_m. destruct (source_text _ s); [apply q_ret|apply q_fail|apply q_panic]. Qed.
Lemma q_insert r : Q (sp_path (rm_span r)) = false -> quiet (db_insert o r).
Proof.
  intros P w b C. unfold db_insert. destruct (w_db w) as [rows|] eqn:D; [|intros _; split; [exact C|apply same_refl]].
  destruct (existsb _ rows); [discriminate|]. rewrite (proj2 UN). intros _. cbn [fst]. split; [exact C|].
  apply same_trans with (set_db (Some (rows ++ [r])) w); [|apply same_log; exact P]. split; [reflexivity|]. split; [reflexivity|]. cbn. rewrite D. unfold rows_in, removals_of. rewrite filter_app. cbn. rewrite P, app_nil_r. reflexivity.
Qed.
Lemma q_write p t : Q p = false -> quiet (write_file o p t).
Proof. intros P w b C. unfold write_file. destruct (o_write o _ p); [discriminate|]. intros _. split; [exact C|]. apply same_put; [exact P|exact P]. Qed.
Lemma backup_out p w b w1 : Q p = false -> backup_new o p w = (w1, Ok b) -> calm w -> fst b = p /\ calm w1 /\ same w w1.
Proof.
  intros P. unfold backup_new. destruct (o_backup_ok o _ p); [|discriminate]. intros E C. injection E as <- <-. split; [reflexivity|]. split; [exact C|]. apply same_log. exact P.
Qed.
Lemma q_skip spans : Forall (fun c => Q (sp_path (c_span c)) = false) spans -> quiet (skip_present contents o spans).
Proof.
  induction 1 as [|c rest P _ IH]; [apply q_ret|]. cbn [skip_present]. apply q_bind.
  - assert (G : quiet (mbind (source_text_m contents (c_span c)) (fun t => db_insert o (Removal (c_span c) t Skipped)))) by (apply q_bind; [apply q_text|intros t; apply q_insert; exact P]).
    intros w a C. destruct (w_db w); [exact (G w a C)|]. intros _. split; [exact C|apply same_refl].
  - intros _. apply q_bind; [exact IH|]. intros n. apply q_ret.
Qed.
Lemma q_iaw p spans : Q p = false -> quiet (instrument_and_write contents o p spans).
Proof.
  intros P. unfold instrument_and_write. apply q_bind; [intros w a; apply q_lift|]. intros extra. apply q_bind; [apply q_lift|]. intros _. destruct (instrument _ _ _ _ _ _); [apply q_write, P|apply q_panic].
Qed.
Lemma q_instrument p spans : Q p = false -> quiet (instrument_statements contents o p spans).
Proof.
  intros P w a C. unfold instrument_statements. destruct (backup_new o p w) as [w1 [b|e|]] eqn:B; cbn [fst snd]; try discriminate.
  destruct (backup_out p w b w1 P B C) as [Eb [C1 S1]]. set (f := (_ ;; _) : M (res unit unit)).
  assert (G : quiet f) by (apply q_bind; [apply q_iaw, P|]; intros _ w' r C' _; split; [exact C'|apply same_log; exact P]).
  specialize (G w1). destruct (f w1) as [w2 [[[]|e|]|e|]]; cbn [fst snd] in *; try discriminate.
  - destruct (G _ C1 eq_refl) as [C2 S2]. intros _. split; [split; [apply C2|cbn; rewrite Eb; exact P]|]. apply same_trans with w1; [exact S1|]. apply same_trans with w2; [exact S2|]. repeat split.
  - destruct (G _ C1 eq_refl) as [C2 S2]. pose proof (q_warn InstrumentationNonbuildable (EWarn InstrumentationNonbuildable) eq_refl w2) as W.
    destruct (warn o _ _ w2) as [w3 [[]|e'|]]; cbn [fst snd] in *; try discriminate. destruct (W _ C2 eq_refl) as [C3 S3]. intros _. split; [exact C3|].
    apply same_trans with w1; [exact S1|]. apply same_trans with w2; [exact S2|]. apply same_trans with w3; [exact S3|]. apply same_restore. rewrite Eb. exact P.
Qed.
Lemma q_removal {A} s (k : M A) : Q (sp_path s) = false -> quiet k -> quiet (with_removal contents o s k).
Proof.
  intros P K w a C. unfold with_removal. destruct (backup_new o _ w) as [w1 [b|e|]] eqn:B; cbn [fst snd]; try discriminate.
  destruct (backup_out _ w b w1 P B C) as [Eb [C1 S1]]. intros E.
  match type of E with snd (finally ?f _ w1) = _ => assert (G : quiet (finally f (restore b))) end.
  { apply q_finally; [intros w' C'; split; [exact C'|apply same_restore; rewrite Eb; exact P]|]. destruct (remove_text _ s) as [[? t]|]; [|apply q_panic]. apply q_bind; [apply q_write, P|]. intros _. exact K. }
  destruct (G w1 a C1 E) as [C2 S2]. split; [exact C2|exact (same_trans _ _ _ S1 S2)].
Qed.
Lemma q_test ex s t : Q (sp_path s) = false -> quiet (run_test hash16 o ex s t).
Proof.
  intros P w a C. unfold run_test. cbv zeta. set (w1 := log _ w). assert (S1 : same w w1) by (apply same_log; exact P).
  destruct (o_exec o _ t s) as [[[]|]|e|]; cbn [fst snd]; try discriminate; [|destruct ex; [intros _; split; [exact C|exact S1]|discriminate]].
  set (w2 := log _ w1). assert (S2 : same w1 w2) by (apply same_log; exact P).
  destruct (o_perform o _ t s) as [[]|e|]; cbn [fst snd]; try discriminate; intros _; (split; [exact C|exact (same_trans _ _ _ S1 S2)]).
Qed.
Lemma q_tests ex s ts : Q (sp_path s) = false -> forall acc, quiet (fold_tests hash16 o ex s acc ts).
Proof.
  intros P. induction ts as [|t rest IH]; intros acc; [apply q_ret|]. cbn [fold_tests]. apply q_bind; [destruct acc as [[]|]; first [apply q_test, P|apply q_ret]|]. exact IH.
Qed.
Lemma q_candidate ex c t : Q (sp_path (c_span c)) = false -> quiet (test_candidate hash16 o ex c t).
Proof.
  intros P. unfold test_candidate. apply q_bind; [apply q_tests, P|]. intros out. apply q_bind; [apply q_ctrlc|]. intros _. apply q_bind; [|intros _; apply q_progress].
  destruct out; [|apply q_ret]. unfold emit. apply q_bind; [apply q_insert; exact P|]. intros _. apply q_event. exact P.
Qed.
Lemma q_one c : Q (sp_path (c_span c)) = false -> quiet (one_candidate hash16 contents o c).
Proof.
  intros P. unfold one_candidate. apply q_bind.
  - intros w a C _. cbn [fst]. destruct (c_kind c); [split; [exact C|apply same_refl]|apply drop_calm, C].
  - intros _. apply q_bind; [apply q_text|]. intros t w. cbv zeta. destruct (match w_ib w with Some _ => _ | None => _ end); [apply (q_removal _ _ P (q_candidate true c t P) w)|apply (q_candidate false c t P w)].
Qed.
Lemma q_loop fuel : forall spans past, Forall (fun c => Q (sp_path (c_span c)) = false) spans -> past = [] -> quiet (candidates_loop hash16 contents o fuel spans past).
Proof.
  induction fuel as [|fuel IH]; intros spans past F ->; cbn [candidates_loop]; unfold skip_past_removals; rewrite ?PeanoNat.Nat.add_0_r;
   (assert (K : skip_past (length spans + length (@nil removal)) None 0 spans [] = (None, 0, spans, [])) by (destruct spans; reflexivity)); cbn [length] in K; rewrite ?PeanoNat.Nat.add_0_r in K;
   cbn [length]; rewrite ?PeanoNat.Nat.add_0_r, K; (apply q_bind; [apply q_progress|]); intros _; (destruct spans as [|c rest]; [apply q_ret|]); inversion F; subst; (apply q_bind; [apply q_one; assumption|]); intros _; [apply q_ret|apply IH; auto].
Qed.
Lemma skip_none spans : skip_past_removals spans [] = (None, 0, spans, []).
Proof. unfold skip_past_removals. destruct spans; reflexivity. Qed.
Lemma q_file p maps : Q p = false -> (forall c, In c (stm_iter maps) -> sp_path (c_span c) = p) -> quiet (one_file hash16 contents o p maps []).
Proof.
  intros P PA. assert (F : Forall (fun c => Q (sp_path (c_span c)) = false) (stm_iter maps)) by (apply Forall_forall; intros c I; rewrite (PA c I); exact P).
  unfold one_file. rewrite skip_none. apply q_bind; [apply q_progress|]. intros _. destruct (stm_iter maps) as [|c rest]; [apply q_ret|]. apply q_bind.
  - intros w r C _. cbn [fst]. split; [exact C|]. apply same_log. exact P.
  - intros r. destruct r as [u|e|]; [| |apply q_panic].
    + apply q_bind; [apply q_ret|]. intros _. apply q_bind; [apply q_ctrlc|]. intros _. apply q_finally; [apply drop_calm|]. apply q_bind; [apply q_instrument, P|]. intros _. apply q_loop; [exact F|reflexivity].
    + apply q_bind; [apply q_warn; reflexivity|]. intros _. apply q_bind; [apply q_ctrlc|]. intros _. apply q_bind; [apply q_skip, F|]. intros n'. apply q_bind; [apply q_progress|]. intros _. apply q_ret.
Qed.

(** Nothing is left of no past removals. *)
Lemma loop_past fuel : forall spans w l, snd (candidates_loop hash16 contents o fuel spans [] w) = Ok l -> l = [].
Proof.
  induction fuel as [|fuel IH]; intros spans w l; cbn [candidates_loop]; rewrite skip_none; unfold mbind; destruct (update_progress _ _ _ w) as [w1 [?|?|]]; cbn [snd]; try discriminate;
    (destruct spans as [|c rest]; [intros E; injection E as <-; reflexivity|]); (destruct (one_candidate _ _ _ _ w1) as [w2 [?|?|]]; cbn [snd]; try discriminate).
  - intros E. injection E as <-. reflexivity.
  - apply IH.
Qed.
Lemma file_past p maps w l : snd (one_file hash16 contents o p maps [] w) = Ok l -> l = [].
Proof.
  unfold one_file. rewrite skip_none. unfold mbind at 1. destruct (update_progress _ _ _ w) as [w1 [?|?|]]; cbn [snd]; try discriminate.
  destruct (stm_iter maps) as [|c rest]; [intros E; injection E as <-; reflexivity|]. unfold mbind at 1.
  cbv zeta. destruct (o_dry_run o _ p) as [u|e|]; [| |discriminate].
  - unfold mbind at 1. cbn [ret]. unfold mbind at 1. destruct (check_ctrlc o _) as [w2 [?|?|]]; cbn [snd]; try discriminate. unfold finally, mbind.
    destruct (instrument_statements _ _ _ _ w2) as [w3 [?|?|]]; cbn [snd]; try discriminate. pose proof (loop_past (length (c :: rest)) (c :: rest) w3 l) as L.
    destruct (candidates_loop _ _ _ _ _ _ w3) as [w4 r]. exact L.
  - unfold mbind. destruct (warn o _ _ _) as [w2 [?|?|]]; cbn [snd]; try discriminate. destruct (check_ctrlc o w2) as [w3 [?|?|]]; cbn [snd]; try discriminate.
    destruct (skip_present _ _ _ w3) as [w4 [?|?|]]; cbn [snd]; try discriminate. destruct (update_progress _ _ _ w4) as [w5 [?|?|]]; cbn [snd ret]; try discriminate. intros E. injection E as <-. reflexivity.
Qed.

(** ** Files that are chosen: the same happens in both runs. *)
Record goes (w w' : world) : Prop := Goes {
  go_seen : share Q (w_trace w') = share Q (w_trace w);
  go_own : forallb (fun e => match about_file e with Some p => Q p | None => true end) (w_trace w') = true;
  go_fs : forall q, Q q = true -> w_fs w' q = w_fs w q;
  go_db : w_db w' = rows_in (w_db w);
  go_c : w_ctrlc w = false; go_c' : w_ctrlc w' = false;
  go_ib : w_ib w' = w_ib w;
  go_h : match w_ib w with Some b => Q (fst b) = true | None => True end   (* the backup that is held is one of a chosen file *)
}.
Definition sim {A} (f : M A) : Prop := forall w w' a, goes w w' -> snd (f w) = Ok a -> snd (f w') = Ok a /\ goes (fst (f w)) (fst (f w')).
Lemma s_bind {A B} (f : M A) (g : A -> M B) : sim f -> (forall a, sim (g a)) -> sim (mbind f g).
Proof.
  intros F G w w' b R. unfold mbind. specialize (F w w'). destruct (f w) as [w1 [a|e|]]; cbn [fst snd] in *; try discriminate. intros E.
  destruct (F a R eq_refl) as [E' R1]. destruct (f w') as [w1' r']; cbn [fst snd] in *. subst r'. exact (G a w1 w1' b R1 E).
Qed.
Lemma s_ret {A} (a : A) : sim (ret a). Proof. intros w w' b R E. split; [exact E|exact R]. Qed.
Lemma s_fail {A} e : sim (@fail A e). Proof. intros w w' b R E. discriminate. Qed.
Lemma s_panic {A} : sim (@panic A). Proof. intros w w' b R E. discriminate. Qed.
Lemma s_lift {A} (r : res unit A) : sim (lift r). Proof. destruct r; intros w w' b R E; try discriminate. split; [exact E|exact R]. Qed.
(** [e] and [e'] are logged. *)
Lemma go_log e e' w w' : goes w w' -> alone e' = alone e -> concerns Q e = true \/ about_file e = None -> goes (log e w) (log e' w').
Proof.
  intros [S1 O1 F D C C' I HO] A K. assert (AB : about_file e' = about_file e).
  { assert (Z : forall x, about_file (alone x) = about_file x) by (destruct x; reflexivity). rewrite <- (Z e), <- (Z e'), A. reflexivity. }
  constructor; try assumption; cbn [log w_trace].
  - rewrite !share_cons. unfold concerns. rewrite AB, A, S1. destruct (about_file e); reflexivity.
  - cbn [forallb]. rewrite O1, AB. unfold concerns in K. destruct (about_file e) as [p|]; [|reflexivity]. destruct K as [K|K]; [rewrite K; reflexivity|discriminate].
Qed.
Lemma go_put p t w w' : goes w w' -> goes (set_fs (put_file p t (w_fs w)) w) (set_fs (put_file p t (w_fs w')) w').
Proof. intros [S1 O1 F D C C' I HO]. constructor; try assumption. intros q H. cbn. unfold put_file. destruct (path_eqb p q); [reflexivity|]. exact (F q H). Qed.
Lemma go_restore b w w' : goes w w' -> Q (fst b) = true -> goes (restore b w) (restore b w').
Proof. intros R P. unfold restore. apply go_log; [apply go_put, R|reflexivity|left; exact P]. Qed.
Lemma go_ib_set x w w' : match x with Some b => Q (fst b) = true | None => True end -> goes w w' -> goes (set_ib x w) (set_ib x w').
Proof. intros X [S1 O1 F D C C' I HO]. constructor; try assumption. reflexivity. Qed.
Lemma s_event e : concerns Q e = true \/ about_file e = None -> sim (emit_event e).
Proof. intros E w w' b R X. split; [exact X|]. cbn. apply go_log; [exact R|reflexivity|exact E]. Qed.
Lemma s_warn k e : about_file e = None -> sim (warn o k e).
Proof. intros E. unfold warn. apply s_bind; [apply s_event; right; exact E|]. intros _. destruct (o_denied o k); [apply s_fail|apply s_ret]. Qed.
Lemma s_progress mm n : sim (update_progress o mm n).
Proof. unfold update_progress. apply s_bind; [destruct mm; [apply s_warn; reflexivity|apply s_ret]|]. intros _ w w' b [S1 O1 F D C C' I HO] E. split; [exact E|]. constructor; assumption. Qed.
Lemma s_ctrlc : sim (check_ctrlc o).
Proof.
  intros w w' b R. unfold check_ctrlc. cbv zeta. rewrite !(proj1 UN), (go_c _ _ R), (go_c' _ _ R). cbn [orb]. intros E. split; [exact E|]. cbn [fst]. apply go_log; [|reflexivity|right; reflexivity].
  destruct R as [S1 O1 F D C C' I HO]. constructor; try assumption; reflexivity.
Qed.
Lemma s_text s : sim (source_text_m contents s).
Proof. unfold source_text_m. destruct (source_text _ s); [apply s_ret|apply s_fail|apply s_panic]. Qed.
Lemma s_finally {A} (f : M A) c : (forall w w', goes w w' -> goes (c w) (c w')) -> sim f -> sim (finally f c).
Proof.
  intros K F w w' a R. unfold finally. specialize (F w w'). destruct (f w) as [w1 r]; cbn [fst snd] in *. intros ->. destruct (F a R eq_refl) as [E' R1].
  destruct (f w') as [w1' r']; cbn [fst snd] in *. split; [exact E'|apply K, R1].
Qed.
Lemma own_same w w' p : goes w w' -> Q p = true -> share (path_eqb p) (w_trace w') = share (path_eqb p) (w_trace w).
Proof. intros R P. rewrite <- (share_share Q p _ P), (go_seen _ _ R), (share_share Q p _ P). reflexivity. Qed.
Lemma s_insert r : Q (sp_path (rm_span r)) = true -> sim (db_insert o r).
Proof.
  intros P w w' b R. unfold db_insert. rewrite (go_db _ _ R). destruct (w_db w) as [rows|] eqn:D; [|intros E; split; [exact E|exact R]]. cbn [rows_in].
  destruct (existsb _ rows) eqn:X; [discriminate|]. rewrite !(proj2 UN). intros E.
  assert (X' : existsb (fun x => text_eqb (display_span (rm_span x)) (display_span (rm_span r))) (removals_of Q rows) = false).
  { apply Bool.not_true_iff_false. intros H. apply existsb_exists in H as [x [I H]]. apply filter_In in I as [I _]. apply Bool.not_true_iff_false in X. apply X. apply existsb_exists. eauto. }
  rewrite X'. cbn [fst snd] in *. split; [exact E|]. apply go_log; [|reflexivity|left; exact P]. destruct R as [S1 O1 F D' C C' I HO]. constructor; try assumption. cbn. unfold rows_in, removals_of. rewrite filter_app. cbn. rewrite P. reflexivity.
Qed.
Lemma s_write p t : Q p = true -> sim (write_file o p t).
Proof.
  intros P w w' b R. unfold write_file. rewrite (ow_write o OW (w_trace w')), (own_same w w' p R P), <- (ow_write o OW). destruct (o_write o (w_trace w) p); [discriminate|]. intros E. split; [exact E|].
  cbn [fst]. apply go_log; [apply go_put, R|reflexivity|left; exact P].
Qed.
Lemma go_backup p w w' w1 b : Q p = true -> goes w w' -> backup_new o p w = (w1, Ok b) -> fst b = p /\ exists w1', backup_new o p w' = (w1', Ok b) /\ goes w1 w1'.
Proof.
  intros P R. unfold backup_new. rewrite (ow_backup o OW (w_trace w')), (own_same w w' p R P), <- (ow_backup o OW). destruct (o_backup_ok o (w_trace w) p); [|discriminate]. intros E. injection E as <- <-.
  split; [reflexivity|]. eexists. rewrite (go_fs _ _ R p P). split; [reflexivity|]. apply go_log; [exact R|reflexivity|left; exact P].
Qed.
Lemma s_skip spans : Forall (fun c => Q (sp_path (c_span c)) = true) spans -> sim (skip_present contents o spans).
Proof.
  induction 1 as [|c rest P _ IH]; [apply s_ret|]. cbn [skip_present]. apply s_bind.
  - assert (G : sim (mbind (source_text_m contents (c_span c)) (fun t => db_insert o (Removal (c_span c) t Skipped)))) by (apply s_bind; [apply s_text|intros t; apply s_insert; exact P]).
    intros w w' a R. rewrite (go_db _ _ R). destruct (w_db w); [exact (G w w' a R)|]. intros E. split; [exact E|exact R].
  - intros _. apply s_bind; [exact IH|]. intros n. apply s_ret.
Qed.
Lemma s_iaw p spans : Q p = true -> sim (instrument_and_write contents o p spans).
Proof.
  intros P. unfold instrument_and_write. apply s_bind.
  - intros w w' a R. rewrite (ow_extra o OW (w_trace w')), (own_same w w' p R P), <- (ow_extra o OW). exact (s_lift _ w w' a R).
  - intros extra. apply s_bind; [apply s_lift|]. intros _. destruct (instrument _ _ _ _ _ _); [apply s_write, P|apply s_panic].
Qed.
Lemma s_instrument p spans : Q p = true -> sim (instrument_statements contents o p spans).
Proof.
  intros P w w' a R. unfold instrument_statements. destruct (backup_new o p w) as [w1 [b|e|]] eqn:B; cbn [fst snd]; try discriminate.
  destruct (go_backup p w w' w1 b P R B) as [Eb [w1' [-> R1]]]. set (f := (_ ;; _) : M (res unit unit)).
  assert (G : sim f).
  { apply s_bind; [apply s_iaw, P|]. intros _ v v' r R' E. cbn [fst snd] in *. rewrite (ow_build o OW (w_trace v')), (own_same v v' p R' P), <- (ow_build o OW). split; [exact E|].
    apply go_log; [exact R'| |left; exact P]. cbn [alone]. rewrite (go_fs _ _ R' p P). reflexivity. }
  specialize (G w1 w1'). destruct (f w1) as [w2 [[[]|e|]|e|]]; cbn [fst snd] in *; try discriminate; destruct (G _ R1 eq_refl) as [E2 R2]; destruct (f w1') as [w2' r2]; cbn [fst snd] in *; subst r2.
  - intros E. split; [exact E|]. apply go_ib_set; [rewrite Eb; exact P|exact R2].
  - pose proof (s_warn InstrumentationNonbuildable (EWarn InstrumentationNonbuildable) eq_refl w2 w2') as W.
    destruct (warn o _ _ w2) as [w3 [[]|e'|]]; cbn [fst snd] in *; try discriminate. destruct (W _ R2 eq_refl) as [E3 R3]. destruct (warn o _ _ w2') as [w3' r3]. cbn [fst snd] in *. subst r3.
    intros E. split; [exact E|]. apply go_restore; [exact R3|]. rewrite Eb. exact P.
Qed.
Lemma s_removal {A} s (k : M A) : Q (sp_path s) = true -> sim k -> sim (with_removal contents o s k).
Proof.
  intros P K w w' a R. unfold with_removal. destruct (backup_new o _ w) as [w1 [b|e|]] eqn:B; cbn [fst snd]; try discriminate.
  destruct (go_backup _ w w' w1 b P R B) as [Eb [w1' [-> R1]]]. intros E.
  match type of E with snd (finally ?f _ w1) = _ => assert (G : sim (finally f (restore b))) end; [|exact (G w1 w1' a R1 E)].
  apply s_finally; [intros v v' R'; apply go_restore; [exact R'|rewrite Eb; exact P]|]. destruct (remove_text _ s) as [[? t]|]; [|apply s_panic]. apply s_bind; [apply s_write, P|]. intros _. exact K.
Qed.
Lemma s_test ex s t : Q (sp_path s) = true -> sim (run_test hash16 o ex s t).
Proof.
  intros P w w' a R. unfold run_test. cbv zeta. set (w1 := log _ w). set (w1' := log _ w').
  assert (R1 : goes w1 w1') by (apply go_log; [exact R|cbn [alone]; rewrite (go_fs _ _ R _ P); reflexivity|left; exact P]).
  rewrite (ow_exec o OW (w_trace w1')), (own_same w1 w1' _ R1 P), <- (ow_exec o OW).
  destruct (o_exec o _ t s) as [[[]|]|e|]; cbn [fst snd]; try discriminate; [|destruct ex; [intros E; split; [exact E|exact R1]|discriminate]].
  set (w2 := log _ w1). set (w2' := log _ w1'). assert (R2 : goes w2 w2') by (apply go_log; [exact R1|cbn [alone]; rewrite (go_fs _ _ R1 _ P); reflexivity|left; exact P]).
  rewrite (ow_perform o OW (w_trace w2')), (own_same w2 w2' _ R2 P), <- (ow_perform o OW).
  destruct (o_perform o _ t s) as [[]|e|]; cbn [fst snd]; try discriminate; intros E; (split; [exact E|exact R2]).
Qed.
Lemma s_tests ex s ts : Q (sp_path s) = true -> forall acc, sim (fold_tests hash16 o ex s acc ts).
Proof.
  intros P. induction ts as [|t rest IH]; intros acc; [apply s_ret|]. cbn [fold_tests]. apply s_bind; [destruct acc as [[]|]; first [apply s_test, P|apply s_ret]|]. exact IH.
Qed.
Lemma s_candidate ex c t : Q (sp_path (c_span c)) = true -> sim (test_candidate hash16 o ex c t).
Proof.
  intros P. unfold test_candidate. apply s_bind; [apply s_tests, P|]. intros out. apply s_bind; [apply s_ctrlc|]. intros _. apply s_bind; [|intros _; apply s_progress].
  destruct out; [|apply s_ret]. unfold emit. apply s_bind; [apply s_insert; exact P|]. intros _. apply s_event. left. exact P.
Qed.
Lemma go_drop w w' : goes w w' -> goes (drop_ib w) (drop_ib w').
Proof. intros R. unfold drop_ib. rewrite (go_ib _ _ R). pose proof (go_h _ _ R) as H. destruct (w_ib w) as [b|]; [|exact R]. apply go_ib_set; [exact Logic.I|]. apply go_restore; [exact R|exact H]. Qed.
Lemma s_one c : Q (sp_path (c_span c)) = true -> sim (one_candidate hash16 contents o c).
Proof.
  intros P. unfold one_candidate. apply s_bind.
  - intros w w' a R E. cbn [fst snd] in *. split; [exact E|]. destruct (c_kind c); [exact R|apply go_drop, R].
  - intros _. apply s_bind; [apply s_text|]. intros t w w' a R. cbv zeta. rewrite (go_ib _ _ R).
    destruct (match w_ib w with Some _ => _ | None => _ end); [apply (s_removal _ _ P (s_candidate true c t P) w w' a R)|apply (s_candidate false c t P w w' a R)].
Qed.
Lemma s_loop fuel : forall spans past, Forall (fun c => Q (sp_path (c_span c)) = true) spans -> past = [] -> sim (candidates_loop hash16 contents o fuel spans past).
Proof.
  induction fuel as [|fuel IH]; intros spans past F ->; cbn [candidates_loop]; rewrite skip_none;
   (apply s_bind; [apply s_progress|]); intros _; (destruct spans as [|c rest]; [apply s_ret|]); inversion F; subst; (apply s_bind; [apply s_one; assumption|]); intros _; [apply s_ret|apply IH; auto].
Qed.
Lemma s_file p maps : Q p = true -> (forall c, In c (stm_iter maps) -> sp_path (c_span c) = p) -> sim (one_file hash16 contents o p maps []).
Proof.
  intros P PA. assert (F : Forall (fun c => Q (sp_path (c_span c)) = true) (stm_iter maps)) by (apply Forall_forall; intros c I; rewrite (PA c I); exact P).
  unfold one_file. rewrite skip_none. apply s_bind; [apply s_progress|]. intros _. destruct (stm_iter maps) as [|c rest]; [apply s_ret|]. apply s_bind.
  - intros w w' r R. cbv zeta. cbn [fst snd]. set (w1 := log _ w). set (w1' := log _ w').
    assert (R1 : goes w1 w1') by (apply go_log; [exact R|cbn [alone]; rewrite (go_fs _ _ R _ P); reflexivity|left; exact P]).
    rewrite (ow_dry o OW (w_trace w1')), (own_same w1 w1' _ R1 P), <- (ow_dry o OW). intros E. split; [exact E|exact R1].
  - intros r. destruct r as [u|e|]; [| |apply s_panic].
    + apply s_bind; [apply s_ret|]. intros _. apply s_bind; [apply s_ctrlc|]. intros _. apply s_finally; [apply go_drop|]. apply s_bind; [apply s_instrument, P|]. intros _. apply s_loop; [exact F|reflexivity].
    + apply s_bind; [apply s_warn; reflexivity|]. intros _. apply s_bind; [apply s_ctrlc|]. intros _. apply s_bind; [apply s_skip, F|]. intros n'. apply s_bind; [apply s_progress|]. intros _. apply s_ret.
Qed.

(** Between files no backup is held. *)
Definition idle {A} (f : M A) : Prop := forall w a, w_ib w = None -> snd (f w) = Ok a -> w_ib (fst (f w)) = None.
Lemma i_bind {A B} (f : M A) (g : A -> M B) : idle f -> (forall a, idle (g a)) -> idle (mbind f g).
Proof. intros F G w b N. unfold mbind. specialize (F w). destruct (f w) as [w1 [a|e|]]; cbn [fst snd] in *; try discriminate. intros E. exact (G a w1 b (F a N eq_refl) E). Qed.
Lemma i_ret {A} (a : A) : idle (ret a). Proof. intros w b N _. exact N. Qed.
Lemma i_fail {A} e : idle (@fail A e). Proof. intros w b N E. discriminate. Qed.
Lemma i_panic {A} : idle (@panic A). Proof. intros w b N E. discriminate. Qed.
Lemma i_warn k e : idle (warn o k e).
Proof. unfold warn. apply i_bind; [intros w a N _; exact N|]. intros _. destruct (o_denied o k); [apply i_fail|apply i_ret]. Qed.
Lemma i_progress mm n : idle (update_progress o mm n).
Proof. unfold update_progress. apply i_bind; [destruct mm; [apply i_warn|apply i_ret]|]. intros _ w a N _. exact N. Qed.
Lemma i_ctrlc : idle (check_ctrlc o).
Proof. intros w a N. unfold check_ctrlc. cbv zeta. destruct (_ || _)%bool; intros _; exact N. Qed.
Lemma i_insert r : idle (db_insert o r).
Proof. intros w a N. unfold db_insert. destruct (w_db w) as [rows|]; [|intros _; exact N]. destruct (existsb _ rows); [discriminate|]. destruct (o_db_ok o _); [|discriminate]. intros _. exact N. Qed.
Lemma i_skip spans : idle (skip_present contents o spans).
Proof.
  induction spans as [|c rest IH]; [apply i_ret|]. cbn [skip_present]. apply i_bind; [|intros _; apply i_bind; [exact IH|intros n; apply i_ret]].
  assert (G : idle (mbind (source_text_m contents (c_span c)) (fun t => db_insert o (Removal (c_span c) t Skipped)))).
  { apply i_bind; [|intros t; apply i_insert]. unfold source_text_m. destruct (source_text _ _); [apply i_ret|apply i_fail|apply i_panic]. }
  intros w a N. destruct (w_db w); [exact (G w a N)|intros _; exact N].
Qed.
Lemma i_file p maps : idle (one_file hash16 contents o p maps []).
Proof.
  unfold one_file. rewrite skip_none. apply i_bind; [apply i_progress|]. intros _. destruct (stm_iter maps) as [|c rest]; [apply i_ret|]. apply i_bind; [intros w a N _; exact N|].
  intros r. destruct r as [u|e|]; [| |apply i_panic].
  - apply i_bind; [apply i_ret|]. intros _. apply i_bind; [apply i_ctrlc|]. intros _ w a N. unfold finally. match goal with |- context [let '(_, _) := ?x in _] => destruct x as [w4 r] end. cbn [fst snd]. intros _. unfold drop_ib. destruct (w_ib w4) eqn:D; [reflexivity|exact D].
  - apply i_bind; [apply i_warn|]. intros _. apply i_bind; [apply i_ctrlc|]. intros _. apply i_bind; [apply i_skip|]. intros n'. apply i_bind; [apply i_progress|]. intros _. apply i_ret.
Qed.
Lemma file_ib p maps w l : w_ib w = None -> snd (one_file hash16 contents o p maps [] w) = Ok l -> w_ib (fst (one_file hash16 contents o p maps [] w)) = None.
Proof. exact (i_file p maps w l). Qed.

Lemma run_part files : paths_ok files -> forall w w', goes w w' -> w_ib w = None -> snd (run hash16 contents o files [] w) = Ok tt ->
  snd (run hash16 contents o (only Q files) [] w') = Ok tt /\ goes (fst (run hash16 contents o files [] w)) (fst (run hash16 contents o (only Q files) [] w')).
Proof.
  induction files as [|[p maps] rest IH]; intros PO w w' R N; [intros _; split; [reflexivity|exact R]|].
  assert (PA : forall c, In c (stm_iter maps) -> sp_path (c_span c) = p) by (intros c I; exact (PO p maps c (or_introl eq_refl) I)).
  assert (PO' : paths_ok rest) by (intros q m c I; exact (PO q m c (or_intror I))).
  cbn [run]. unfold mbind at 1 2. pose proof (file_past p maps w) as FP. pose proof (file_ib p maps w) as FI. unfold only. cbn [filter fst]. destruct (Q p) eqn:P.
  - cbn [run]. unfold mbind. pose proof (s_file p maps P PA w w') as SF. destruct (one_file _ _ _ p maps [] w) as [w1 [l|e|]]; cbn [fst snd] in *; try discriminate.
    destruct (SF l R eq_refl) as [E R1]. destruct (one_file _ _ _ p maps [] w') as [w1' r]; cbn [fst snd] in *. subst r. rewrite (FP l eq_refl). apply IH; [exact PO'|exact R1|exact (FI l N eq_refl)].
  - pose proof (q_file p maps P PA w) as QF. destruct (one_file _ _ _ p maps [] w) as [w1 [l|e|]]; cbn [fst snd] in *; try discriminate.
    rewrite (FP l eq_refl). intros E. apply IH; [exact PO'| |exact (FI l N eq_refl)|exact E].
    destruct R as [S1 O1 F D C C' I HO]. destruct (QF l) as [[C1 I1] [S2 [F2 D2]]]; [split; [exact C|rewrite N; exact Logic.I]|reflexivity|].
    constructor; try assumption; try congruence. { intros q H. rewrite F2 by exact H. exact (F q H). } { rewrite (FI l N eq_refl). congruence. } rewrite (FI l N eq_refl). exact Logic.I.
Qed.
End Sim.
