(** Histories of interrupted and resumed runs. *)
From Verif Require Import Base M_Text S_Text L_Text M_Rewriter M_Span S_Span L_Span M_Instr S_Instr L_Instr M_Run S_Run L_Run L_RunFinal L_Resume.
From Coq Require Import Permutation Sorted.

Section History.
Context (hash16 : text -> text) (contents : path -> text).
Context (files : list (path * span_test_maps)) (fs : path -> text) (b : behaviour).
Hypothesis PR : project files.

Local Notation C := (all_cands files).
Local Notation hist := (history hash16 contents files fs b).
Local Notation final o rows := (fst (run_from hash16 contents o files fs (Some rows))).
Local Notation result o rows := (snd (run_from hash16 contents o files fs (Some rows))).

Lemma follows_ran o db s t x : follows b o -> ran_with o (w_trace (fst (run_from hash16 contents o files fs db))) s t x ->
  b_builds b s t = true /\ b_result b s t = x.
Proof.
  intros (_ & F2 & F3) (env & f & bf & M & P). split.
  - destruct (run_exec hash16 contents o files fs db (proj1 PR) _ _ _ _ _ M) as (_ & p' & _ & _ & u & U).
    specialize (F2 bf t s). now rewrite U in F2.
  - specialize (F3 (ERun s t env f :: bf) t s). now rewrite P in F3.
Qed.
Lemma follows_nobuild o tr s t : follows b o -> did_not_build o tr s t -> b_builds b s t = false.
Proof. intros (_ & F2 & _) (f & bf & M & P). specialize (F2 (EExec s t f :: bf) t s). now rewrite P in F2. Qed.
Lemma follows_dry_failed o tr p : follows b o -> dry_run_failed o tr p -> b_dry b p = false.
Proof. intros (F1 & _) (f & bf & u & M & P). specialize (F1 (EDryRun p f :: bf) p). now rewrite P in F1. Qed.
Lemma follows_dry_ok o tr p : follows b o -> dry_run_ok o tr p -> b_dry b p = true.
Proof. intros (F1 & _) (f & bf & M & P). specialize (F1 (EDryRun p f :: bf) p). now rewrite P in F1. Qed.

Lemma exec_dry_ok o db s t f pre : moment (EExec s t f :: pre) (w_trace (fst (run_from hash16 contents o files fs db))) ->
  dry_run_ok o pre (sp_path s).
Proof.
  intros M. destruct (good_event hash16 contents o files fs db (proj1 PR) _ _ M) as (_ & (m & c & a & b' & _ & _ & _ & _ & D & _) & _).
  exact D.
Qed.
Lemma ran_dry_ok o db s t x : ran_with o (w_trace (fst (run_from hash16 contents o files fs db))) s t x ->
  exists pre, dry_run_ok o pre (sp_path s).
Proof.
  intros (env & f & bf & M & _). destruct (run_exec hash16 contents o files fs db (proj1 PR) _ _ _ _ _ M) as (_ & p' & _ & M' & _).
  eexists. eapply exec_dry_ok; exact M'.
Qed.

Lemma verdict_tests_prefix s a t rest : (forall t', In t' a -> b_builds b s t' = true /\ b_result b s t' = XPassed) ->
  verdict_tests b s (a ++ t :: rest) = verdict_tests b s (t :: rest).
Proof.
  induction a as [|x a IH]; intros H; [reflexivity|]. cbn [app verdict_tests].
  destruct (H x (or_introl eq_refl)) as [-> ->]. apply IH. intros t' Ht. apply H. now right.
Qed.
Lemma verdict_tests_all s a : (forall t', In t' a -> b_builds b s t' = true /\ b_result b s t' = XPassed) ->
  verdict_tests b s a = Some Passed.
Proof.
  induction a as [|x a IH]; intros H; [reflexivity|]. cbn [verdict_tests].
  destruct (H x (or_introl eq_refl)) as [-> ->]. apply IH. intros t' Ht. apply H. now right.
Qed.

Lemma row_verdict o db c r : follows b o -> In c C ->
  row_of contents o (w_trace (fst (run_from hash16 contents o files fs db))) c r -> is_row contents b c r.
Proof.
  intros F Hc (E & T & J). split; [exact E|]. split; [exact T|]. unfold verdict.
  destruct (proj2 (proj2 PR) c Hc) as [_ NE].
  assert (PRE : forall a t rest, c_tests c = a ++ t :: rest ->
     (forall t', In t' a -> ran_with o (w_trace (fst (run_from hash16 contents o files fs db))) (c_span c) t' XPassed) ->
     verdict_tests b (c_span c) (c_tests c) = verdict_tests b (c_span c) (t :: rest)).
  { intros a t rest -> H. apply verdict_tests_prefix. intros t' Ht. eapply follows_ran; [exact F|now apply H]. }
  assert (DR : forall t x, ran_with o (w_trace (fst (run_from hash16 contents o files fs db))) (c_span c) t x ->
     b_dry b (sp_path (c_span c)) = true).
  { intros t x R. destruct (ran_dry_ok _ _ _ _ _ R) as (pre & D). eapply follows_dry_ok; eassumption. }
  destruct (rm_outcome r); cbn in J.
  - now rewrite (follows_dry_failed _ _ _ F J).
  - destruct J as (a & t & rest & ET & A & (f & bf & M & P)).
    rewrite (follows_dry_ok o bf _ F (exec_dry_ok _ _ _ _ _ _ M)). rewrite (PRE a t rest ET A). cbn.
    now rewrite (follows_nobuild o _ _ _ F (ex_intro _ f (ex_intro _ bf (conj M P)))).
  - destruct J as (a & t & rest & ET & A & R). rewrite (DR _ _ R), (PRE a t rest ET A). cbn.
    destruct (follows_ran _ _ _ _ _ F R) as [-> ->]. reflexivity.
  - destruct J as (a & t & rest & ET & A & R). rewrite (DR _ _ R), (PRE a t rest ET A). cbn.
    destruct (follows_ran _ _ _ _ _ F R) as [-> ->]. reflexivity.
  - destruct (c_tests c) as [|t0 ts] eqn:ET; [congruence|]. rewrite (DR t0 XPassed (J t0 (or_introl eq_refl))).
    apply verdict_tests_all. intros t' Ht. eapply follows_ran; [exact F|now apply J].
Qed.

Lemma unjudged_verdict o db c : follows b o -> In c C ->
  unjudged o (w_trace (fst (run_from hash16 contents o files fs db))) c -> verdict b c = None.
Proof.
  intros F Hc (t & Ht & R). unfold verdict. destruct (ran_dry_ok _ _ _ _ _ R) as (pre & D).
  rewrite (follows_dry_ok _ _ _ F D). apply in_split in Ht as (x & y & E). rewrite E, verdict_tests_prefix.
  - cbn. destruct (follows_ran _ _ _ _ _ F R) as [-> ->]. reflexivity.
  - intros t' Ht'. eapply follows_ran; [exact F|].
    eapply (earlier_passed hash16 contents o files fs db (proj1 PR) c t XNone x y); eauto. apply PR.
Qed.

Lemma inserts_moment tr tr' : moment tr tr' -> exists more, inserts tr' = inserts tr ++ more.
Proof.
  intros (later & ->). exists (inserts later). unfold inserts. now rewrite rev_app_distr, flat_map_app.
Qed.

Lemma insert_is_row o rows r : follows b o -> In r (inserts (w_trace (final o rows))) ->
  exists c, In c C /\ is_row contents b c r.
Proof.
  intros F H. destruct (insert_row hash16 contents o files fs (Some rows) (proj1 PR) r H) as (c & H1 & H2).
  exists c. split; [exact H1|]. eapply row_verdict; eassumption.
Qed.

Lemma hist_rows rows : hist rows -> forall r, In r rows -> exists c, In c C /\ is_row contents b c r.
Proof.
  induction 1 as [|rows o tr H IH F M]; intros r Hr; [destruct Hr|].
  apply in_app_or in Hr as [Hr|Hr]; [now apply IH|]. apply (insert_is_row o rows r F).
  destruct (inserts_moment _ _ M) as (more & ->). apply in_or_app. now left.
Qed.
Lemma hist_wf rows : hist rows -> forall r, In r rows -> wf_span (rm_span r).
Proof.
  intros H r Hr. destruct (hist_rows rows H r Hr) as (c & Hc & E & _). rewrite E. now apply PR.
Qed.

Lemma wf_all : forall c, In c C -> wf_span (c_span c).
Proof. intros c Hc. now apply PR. Qed.

(** *** Candidates in ascending order *)
Hypothesis ASC : ascending (map c_span C).

Lemma nodup_c : NoDup (map c_span C). Proof. apply PR. Qed.

Lemma hist_nodup rows : hist rows -> NoDup (map rm_span rows).
Proof.
  induction 1 as [|rows o tr H IH F M]; [constructor|].
  destruct (resumed_sorted hash16 contents o files fs rows (proj1 PR) nodup_c wf_all (hist_wf rows H) ASC IH) as (_ & _ & _ & TD & SUB & _).
  destruct (inserts_moment _ _ M) as (more & E). rewrite E in TD, SUB.
  rewrite map_app.
  assert (N : NoDup (map rm_span (inserts tr))).
  { rewrite map_app in SUB. eapply subseq_nodup; [|exact nodup_c]. eapply subseq_trans; [apply subseq_app_l|exact SUB]. }
  assert (D : forall x, In x (map rm_span rows) -> In x (map rm_span (inserts tr)) -> False).
  { intros x Hx Hy. apply in_map_iff in Hy as (y & <- & Hy).
    destruct (TD y) as (c & _ & E1 & T); [apply in_or_app; now left|]. apply T. rewrite E1. exact Hx. }
  clear -IH N D. induction (map rm_span rows) as [|x l IHl]; [exact N|]. inversion IH; subst. cbn. constructor.
  - intros X. apply in_app_or in X as [X|X]; [auto|]. apply (D x); [now left|exact X].
  - apply IHl; [assumption|]. intros y Hy. apply D. now right.
Qed.

Lemma final_rows o rows : hist rows -> follows b o -> result o rows = Ok tt ->
  forall r, In r (rows ++ inserts (w_trace (final o rows))) <-> exists c, In c C /\ is_row contents b c r.
Proof.
  intros H F OK r. split.
  - intros Hr. apply in_app_or in Hr as [Hr|Hr]; [now apply (hist_rows rows H)|now apply (insert_is_row o rows)].
  - intros (c & Hc & R).
    assert (SOME : exists x, In x (rows ++ inserts (w_trace (final o rows))) /\ rm_span x = c_span c).
    { destruct (resumed_sorted hash16 contents o files fs rows (proj1 PR) nodup_c wf_all (hist_wf rows H) ASC (hist_nodup rows H))
        as (_ & _ & _ & _ & _ & a & b' & E & FIN & _ & OKE). rewrite (OKE OK), app_nil_r in E. rewrite E in Hc.
      destruct (FIN c Hc) as [D|[[(x & X1 & X2)|X]|[_ X]]].
      - unfold done in D. apply in_map_iff in D as (x & X1 & X2). exists x. split; [apply in_or_app; now left|exact X1].
      - exists x. split; [|exact X2]. apply in_or_app. right. apply inserts_in.
        apply in_moment in X1 as (pre & later & EE).
        assert (M : moment (EConsole x :: pre) (w_trace (final o rows))) by (exists later; exact EE).
        destruct (good_event hash16 contents o files fs (Some rows) (proj1 PR) _ _ M) as (_ & _ & _ & K).
        destruct K as (pre' & ->); [reflexivity|]. rewrite EE. apply in_or_app. right. right. now left.
      - exfalso. rewrite <- E in Hc. destruct R as (_ & _ & V). rewrite (unjudged_verdict o (Some rows) c F Hc X) in V. discriminate.
      - destruct X as (x & X1 & X2 & _); [reflexivity|]. exists x. split; [|exact X2]. apply in_or_app. right. now apply inserts_in. }
    destruct SOME as (x & X1 & X2).
    assert (exists c', In c' C /\ is_row contents b c' x) as (c' & Hc' & R').
    { apply in_app_or in X1 as [X1|X1]; [now apply (hist_rows rows H)|now apply (insert_is_row o rows)]. }
    assert (c' = c). { eapply (NoDup_map_inv_eq c_span); [apply nodup_c|exact Hc'|exact Hc|]. rewrite <- X2. symmetry. apply R'. }
    subst c'. assert (x = r); [|now subst].
    destruct R as (A1 & A2 & A3), R' as (B1 & B2 & B3). destruct x, r. cbn in *. congruence.
Qed.

(** *** ... and every test says how it ended *)
Hypothesis JUDGED : forall s t, b_result b s t <> XNone.

Lemma sort_is_id rows : StronglySorted span_lt (map rm_span rows) -> map rm_span (sort_removals rows) = map rm_span rows.
Proof.
  intros S. apply sorted_unique; [apply sort_sorted, sorted_nodup, S|exact S|].
  intros x. split; intros Hx; apply in_map_iff in Hx as (y & <- & Hy); apply in_map; [now rewrite in_sort in Hy|now rewrite in_sort].
Qed.

Lemma sorted_app_l {A} (R : A -> A -> Prop) x y : StronglySorted R (x ++ y) -> StronglySorted R x.
Proof.
  induction x as [|a x IH]; intros S; [constructor|]. cbn in S. apply StronglySorted_inv in S as [S F]. constructor; [now apply IH|].
  rewrite Forall_forall in *. intros z Hz. apply F. apply in_or_app. now left.
Qed.
Lemma sorted_app_r {A} (R : A -> A -> Prop) x y : StronglySorted R (x ++ y) -> StronglySorted R y.
Proof. induction x as [|a x IH]; intros S; [exact S|]. apply IH. cbn in S. now apply StronglySorted_inv in S as [S _]. Qed.
Lemma sorted_subseq {A} (R : A -> A -> Prop) x y : subseq x y -> StronglySorted R y -> StronglySorted R x.
Proof.
  induction 1 as [|z x y H IH|z x y H IH]; intros S; [constructor| |].
  - apply StronglySorted_inv in S as [S F]. constructor; [now apply IH|]. rewrite Forall_forall in *.
    intros u Hu. apply F. eapply subseq_in; eassumption.
  - apply IH. now apply StronglySorted_inv in S as [S _].
Qed.

(** The rows are, in order, those of the first candidates. *)
Definition front (rows : list removal) : Prop := exists rest, map c_span C = map rm_span rows ++ rest.

Lemma front_aligned rows : front rows -> map rm_span (sort_removals rows) = firstn (length rows) (map c_span C).
Proof.
  intros (rest & E). rewrite sort_is_id.
  - rewrite E, firstn_app, map_length, Nat.sub_diag. cbn. rewrite app_nil_r.
    rewrite <- (map_length rm_span rows). now rewrite firstn_all.
  - eapply sorted_app_l. rewrite <- E. now apply ascending_sorted.
Qed.

Lemma resumed_front o rows : hist rows -> front rows -> 
  resumed hash16 contents o files fs rows (fun _ => False) (exists tr, o_db_ok o tr = false).
Proof.
  intros H FR. eapply resumed_aligned; [apply PR|exact nodup_c|exact wf_all|now apply hist_wf|now apply front_aligned].
Qed.

Lemma front_step o rows : hist rows -> front rows -> follows b o ->
  front (rows ++ inserts (w_trace (final o rows))) /\
  (result o rows = Ok tt -> map rm_span (rows ++ inserts (w_trace (final o rows))) = map c_span C).
Proof.
  intros H FR F. destruct (resumed_front o rows H FR) as (_ & _ & _ & TD & SUB & a & b' & E & FIN & INA & OKE).
  set (I' := inserts (w_trace (final o rows))) in *.
  assert (SC := ascending_sorted _ ASC).
  assert (SI : StronglySorted span_lt (map rm_span I')) by (eapply sorted_subseq; eassumption).
  destruct FR as (rest & ER).
  assert (COV : forall c, In c a -> ~ In (c_span c) (map rm_span rows) -> In (c_span c) (map rm_span I')).
  { intros c Hc N. destruct (FIN c Hc) as [D|[[(x & X1 & X2)|X]|[_ X]]]; [destruct (N D)| | |].
    - rewrite <- X2. apply in_map. apply inserts_in.
      apply in_moment in X1 as (pre & later & EE).
      assert (M : moment (EConsole x :: pre) (w_trace (final o rows))) by (exists later; exact EE).
      destruct (good_event hash16 contents o files fs (Some rows) (proj1 PR) _ _ M) as (_ & _ & _ & K).
      destruct K as (pre' & ->); [reflexivity|]. rewrite EE. apply in_or_app. right. right. now left.
    - exfalso. destruct X as (t & Ht & R). destruct (follows_ran _ _ _ _ _ F R) as [_ R']. exact (JUDGED _ _ R').
    - destruct X as (x & X1 & X2 & _); [reflexivity|]. rewrite <- X2. apply in_map. now apply inserts_in. }
  assert (NDC := nodup_c). rewrite E, map_app in ER, NDC, SC.
  destruct (moment_linear (map c_span b') rest (map c_span a) (map rm_span rows)) as [(m & Em)|(m & Em)].
  { exact ER. }
  - (* the rows reach at least to the end of [a] *)
    assert (Ea : map c_span a ++ m = map rm_span rows).
    { rewrite Em, app_assoc in ER. now apply app_inv_tail in ER. }
    assert (I' = []).
    { destruct I' as [|x I2] eqn:EI; [reflexivity|]. exfalso. destruct (TD x (or_introl eq_refl)) as (c & _ & E1 & T).
      apply T. rewrite E1, <- Ea. apply in_or_app. left. apply INA. now left. }
    rewrite H0, app_nil_r. split; [exists rest; now rewrite E, map_app|].
    intros OK. specialize (OKE OK). subst b'. cbn in Em. symmetry in Em. apply app_eq_nil in Em as [-> ->].
    rewrite E, map_app. cbn. now rewrite !app_nil_r in *.
  - (* [a] goes on after the rows *)
    assert (Ea : map c_span a = map rm_span rows ++ m).
    { rewrite Em, app_assoc in ER. now apply app_inv_tail in ER. }
    assert (EI : map rm_span I' = m).
    { apply sorted_unique; [exact SI|eapply sorted_app_r; rewrite <- Ea; eapply sorted_app_l; exact SC|].
      intros x. split; intros Hx.
      - apply in_map_iff in Hx as (y & <- & Hy). assert (Hy' := INA y Hy). rewrite Ea in Hy'. apply in_app_or in Hy' as [Hy'|Hy']; [|exact Hy'].
        exfalso. destruct (TD y Hy) as (c & _ & E1 & T). apply T. now rewrite E1.
      - assert (Hx' : In x (map c_span a)) by (rewrite Ea; apply in_or_app; now right).
        apply in_map_iff in Hx' as (c & <- & Hc). apply COV; [exact Hc|]. intros N.
        rewrite Ea, <- app_assoc in NDC. eapply (nodup_app_disjoint _ _ _ NDC N). apply in_or_app. now left. }
    split.
    + exists (map c_span b'). rewrite E, !map_app, Ea, EI. reflexivity.
    + intros OK. specialize (OKE OK). subst b'. rewrite E, !map_app, Ea, EI. cbn. now rewrite app_nil_r.
Qed.

Lemma hist_front rows : hist rows -> front rows.
Proof.
  induction 1 as [|rows o tr H IH F M]; [exists (map c_span C); reflexivity|].
  destruct (front_step o rows H IH F) as [(rest & E) _]. destruct (inserts_moment _ _ M) as (more & EM).
  rewrite EM, app_assoc, map_app, <- app_assoc in E. eexists. exact E.
Qed.

(** Rows in order, exactly those of the candidates. *)
Lemma rows_forall2 rows : (forall r, In r rows -> exists c, In c C /\ is_row contents b c r) ->
  map rm_span rows = map c_span C -> Forall2 (is_row contents b) C rows.
Proof.
  intros R E. assert (N := nodup_c).
  assert (G : forall cs rs, map rm_span rs = map c_span cs -> (forall c, In c cs -> In c C) ->
    (forall r, In r rs -> exists c, In c C /\ is_row contents b c r) -> Forall2 (is_row contents b) cs rs).
  { induction cs as [|c cs IH]; intros [|r rs] E' HC HR; try discriminate; constructor.
    - injection E' as E1 _. destruct (HR r (or_introl eq_refl)) as (c' & H1 & H2).
      assert (c' = c); [|now subst]. eapply (NoDup_map_inv_eq c_span); [exact N|exact H1|apply HC; now left|].
      rewrite <- E1. symmetry. apply H2.
    - injection E' as _ E1. apply IH; auto. intros x Hx. apply HC. now right. intros x Hx. apply HR. now right. }
  apply G; auto.
Qed.

Lemma forall2_row_unique cs r1 : forall r2, Forall2 (is_row contents b) cs r1 -> Forall2 (is_row contents b) cs r2 -> r1 = r2.
Proof.
  revert r1. induction cs as [|c cs IH]; intros r1 r2 H1 H2; inversion H1; inversion H2; subst; [reflexivity|].
  f_equal; [|now apply IH]. destruct H3 as (A1 & A2 & A3), H8 as (B1 & B2 & B3). destruct y, y0. cbn in *. congruence.
Qed.

Lemma resume_equals o rows : hist rows -> follows b o ->
  (forall m, ~ In (EWarnChanged m) (w_trace (final o rows))) /\
  (result o rows = Err DbFailed -> exists tr, o_db_ok o tr = false) /\
  (forall s t, In (s, t) (runs (w_trace (final o rows))) -> ~ In s (map rm_span rows)) /\
  (exists rows', w_db (final o rows) = Some (rows ++ rows')) /\
  (result o rows = Ok tt -> exists all, w_db (final o rows) = Some all /\ Forall2 (is_row contents b) C all).
Proof.
  intros H F. assert (FR := hist_front rows H).
  destruct (resumed_front o rows H FR) as (A1 & A2 & A3 & _).
  split; [intros m Hm; exact (A1 m Hm)|]. split; [exact A2|]. split.
  { intros s t Hst. destruct (A3 s t Hst) as (c & _ & <- & T). exact T. }
  pose proof (db_after hash16 contents o files fs rows (proj1 PR)) as D.
  split; [eauto|]. intros OK. eexists. split; [exact D|]. apply rows_forall2.
  - apply (final_rows o rows H F OK).
  - now apply front_step.
Qed.
End History.
