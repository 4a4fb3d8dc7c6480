(** C59: the tests that TypeScript back ends know of. *)
From Verif Require Import Base M_Text L_Text M_Span S_Span L_Span M_Run M_Output M_Exec M_Go S_Go L_Go M_Select P_Select M_Ts.
Local Open Scope N_scope.

Local Notation word0 := (fun _ : char => false).

(** ** Specification: the lines of Mocha's "spec" reporter
    A passing test's line: indentation, a mark, a space, the title, and possibly a figure: the duration, if the test was slow,
    or the gas used (hardhat-gas-reporter). *)
Inductive figure := Nothing | Time (n : nat) | Gas (n : nat).
Definition figure_text (f : figure) : text :=
  match f with
  | Nothing => []
  | Time n => s2t " (" ++ print_usize n ++ s2t "ms)"
  | Gas n => s2t " (" ++ print_usize n ++ s2t " gas)"
  end.
Definition blanks (t : text) : Prop := Forall (fun c => is_whitespace c = true) t.
Definition test_line (indent : text) (mark : char) (title : text) (f : figure) : text :=
  indent ++ [mark] ++ s2t " " ++ title ++ figure_text f.
Definition digits (t : text) : Prop := t <> [] /\ Forall (fun c => 48 <= c <= 57) t.
(** The title itself looks as if it ended in a figure. *)
Definition figure_like (t : text) : Prop :=
  exists ds u, digits ds /\ In u [s2t " gas)"; s2t "ms)"] /\ t = s2t "(" ++ ds ++ u.
Definition ends_in_figure (title : text) : Prop :=
  figure_like title \/ exists x y, title = x ++ s2t " " ++ y /\ figure_like y.

(** ** The regular expressions *)
Lemma digit09_spec c : digit09 c = true <-> 48 <= c <= 57.
Proof. unfold digit09. rewrite andb_true_iff, !N.leb_le. reflexivity. Qed.
Lemma mt_seq_iff a b prev mid rest c1 c3 : mt word0 (XSeq a b) prev mid rest c1 c3 <->
  exists m1 m2 c2, mid = m1 ++ m2 /\ mt word0 a prev m1 (m2 ++ rest) c1 c2 /\ mt word0 b (last_char prev m1) m2 rest c2 c3.
Proof.
  split.
  - intros H. inversion H; subst. eauto 8.
  - intros [m1 [m2 [c2 [-> [A B]]]]]. econstructor; eassumption.
Qed.
Lemma mt_figure u prev mid rest cap cap' : mt word0 (figure_re u) prev mid rest cap cap' <->
  cap' = cap /\ exists ds, digits ds /\ mid = s2t " (" ++ ds ++ u ++ s2t ")".
Proof.
  unfold figure_re. rewrite mt_lit. split.
  - intros [mid' [-> H]]. apply mt_seq_iff in H as [m1 [m2 [c2 [-> [A B]]]]]. inversion A; subst. 
    apply mt_seq_iff in B as [m3 [m4 [c3 [-> [A3 B3]]]]]. inversion A3; subst. apply mt_lit in B3 as [m5 [-> B5]]. inversion B5; subst.
    split; [reflexivity|]. exists (c :: m3). split.
    + split; [discriminate|]. constructor; [apply digit09_spec; assumption|]. eapply Forall_impl; [|eassumption]. intros d. apply digit09_spec.
    + reflexivity.
  - intros [-> [ds [[NE D] ->]]]. destruct ds as [|d ds]; [congruence|]. inversion D as [|? ? D1 D2]; subst.
    exists ((d :: ds) ++ u ++ s2t ")"). split; [reflexivity|]. apply mt_seq_iff. exists [d], (ds ++ u ++ s2t ")"), cap. split; [reflexivity|].
    split; [constructor; apply digit09_spec; exact D1|]. apply mt_seq_iff. exists ds, (u ++ s2t ")"), cap. split; [reflexivity|]. split.
    + constructor. eapply Forall_impl; [|exact D2]. intros c. apply digit09_spec.
    + apply mt_lit. exists (s2t ")"). split; [reflexivity|]. constructor.
Qed.

(** The repetition at its longest is tried first. *)
Lemma star_max {R} (f : char -> bool) mid : forall rest prev cap (k : option char -> text -> option text -> option R) x,
  Forall (fun c => f c = true) mid -> match rest with d :: _ => f d = false | [] => True end ->
  k (last_char prev mid) rest cap = Some x -> m word0 (XStar f) prev (mid ++ rest) cap k = Some x.
Proof.
  induction mid as [|c mid IH]; intros rest prev cap k x F E K; cbn [app].
  - cbn [m]. destruct rest as [|d rest]; [exact K|]. rewrite E. exact K.
  - inversion F as [|? ? F1 F2]; subst. cbn [m]. rewrite F1. specialize (IH rest (Some c) cap k x F2 E K). cbn [m] in IH. rewrite IH. reflexivity.
Qed.

Definition at_end (_ : option char) (rest : text) (cap : option text) : option (option text) :=
  match rest with [] => Some cap | _ => None end.

(** A whole line matches iff it can be decomposed. *)
Lemma mt_line r prev mid rest cap cap' : mt word0 (line_re r) prev mid rest cap cap' <->
  exists ws c x m4 prev', mid = ws ++ c :: 32 :: x ++ m4 /\ blanks ws /\ c <> NL /\ ~ In NL x /\ mt word0 r prev' m4 rest (Some x) cap' /\ prev' = last_char prev (ws ++ c :: 32 :: x).
Proof.
  assert (D : forall c, dot c = true <-> c <> NL) by (intros c; unfold dot; destruct (N.eqb_spec c NL); cbn; intuition congruence).
  assert (Dx : forall x, Forall (fun c => dot c = true) x <-> ~ In NL x).
  { intros x. rewrite Forall_forall. split; [intros H I; apply H in I; discriminate|]. intros H c I. apply D. intros ->. contradiction. }
  unfold line_re. split.
  - intros H. apply mt_seq_iff in H as [ws [m2 [c2 [-> [A B]]]]]. inversion A; subst.
    apply mt_seq_iff in B as [m3 [m4 [c3 [-> [A3 B3]]]]]. inversion A3; subst.
    apply mt_seq_iff in B3 as [m5 [m6 [c5 [-> [A5 B5]]]]]. inversion A5; subst.
    apply mt_seq_iff in B5 as [m7 [m8 [c7 [-> [A7 B7]]]]]. inversion A7; subst. match goal with X : mt _ (XStar dot) _ _ _ _ _ |- _ => inversion X; subst end.
    exists ws, c, m7, m8, (last_char (last_char (last_char (last_char prev ws) [c]) [32]) m7). split; [reflexivity|]. split; [assumption|]. split; [apply D; assumption|].
    split; [apply Dx; assumption|]. split; [exact B7|]. rewrite <- !last_char_app. rewrite <- ?app_assoc. reflexivity.
  - intros [ws [c [x [m4 [prev' [-> [W [C [X [M ->]]]]]]]]]].
    apply mt_seq_iff. exists ws, (c :: 32 :: x ++ m4), cap. split; [reflexivity|]. split; [constructor; exact W|].
    apply mt_seq_iff. exists [c], (32 :: x ++ m4), cap. split; [reflexivity|]. split; [constructor; apply D, C|].
    apply mt_seq_iff. exists [32], (x ++ m4), cap. split; [reflexivity|]. split; [constructor|].
    apply mt_seq_iff. exists x, m4, (Some x). split; [reflexivity|]. split; [econstructor; constructor; apply Dx, X|].
    rewrite <- !last_char_app. rewrite <- ?app_assoc. exact M.
Qed.

Lemma captures_none r line : (forall cap', ~ mt word0 r None line [] None cap') -> captures_line r line = None.
Proof.
  intros H. unfold captures_line. destruct (m _ _ _ _ _ _) as [c|] eqn:E; [|reflexivity]. exfalso.
  apply m_sound in E as [mid [rest [cap' [-> [M K]]]]]. destruct rest; [|discriminate]. rewrite app_nil_r in H. exact (H cap' M).
Qed.

(** After indentation and mark, the capture is determined by what follows. *)
Lemma captures_after r indent mark t x : blanks indent -> is_whitespace mark = false -> mark <> NL ->
  (forall mid rest cap', t = mid ++ rest -> ~ In NL mid -> mt word0 r (last_char None (indent ++ mark :: 32 :: mid)) rest [] (Some mid) cap' -> cap' = Some x) ->
  ~ In NL x -> (exists rest, t = x ++ rest /\ mt word0 r (last_char None (indent ++ mark :: 32 :: x)) rest [] (Some x) (Some x)) ->
  captures_line (line_re r) (indent ++ mark :: 32 :: t) = Some x.
Proof.
  intros B W C U NLx [rest [-> M]].
  assert (Dm : dot mark = true) by (unfold dot; destruct (N.eqb_spec mark NL); [congruence|reflexivity]).
  assert (Dx : Forall (fun c => dot c = true) x).
  { apply Forall_forall. intros c I. unfold dot. destruct (N.eqb_spec c NL) as [->|]; [contradiction|reflexivity]. }
  unfold captures_line, line_re. cbn [m].
  match goal with |- match ?e with _ => _ end = _ => enough (E : e = Some (Some x)) by (rewrite E; reflexivity) end.
  refine (star_max is_whitespace indent _ None None (fun p r0 c => m word0 (XSeq (XClass dot) (XSeq (XChar 32) (XSeq (XCap (XStar dot)) r))) p r0 c at_end) (Some x) B _ _).
  { exact W. }
  cbn [m]. rewrite Dm. change (32 =? 32) with true. cbv iota.
  assert (L : last_char None (indent ++ [mark; 32]) = Some 32) by (rewrite last_char_app; reflexivity).
  match goal with |- ?e = _ => change e with (m word0 (XSeq (XCap (XStar dot)) r) (Some 32) (x ++ rest) None at_end) end. rewrite <- L. clear L.
  destruct (m word0 (XSeq (XCap (XStar dot)) r) (last_char None (indent ++ [mark; 32])) (x ++ rest) None at_end) as [c|] eqn:E.
  - apply m_sound in E as [mid [rest' [cap' [E [M' K]]]]]. destruct rest'; [|discriminate]. cbn in K. injection K as <-. rewrite app_nil_r in E. subst mid.
    apply mt_seq_iff in M' as [m1 [m2 [c2 [E [A Bq]]]]]. inversion A; subst. match goal with X : mt _ (XStar dot) _ _ _ _ _ |- _ => inversion X; subst end.
    f_equal. apply (U m1 m2); [exact E| |].
    + intros I. match goal with X : Forall _ m1 |- _ => apply (proj1 (Forall_forall _ _) X) in I; discriminate end.
    + rewrite <- last_char_app, <- ?app_assoc in Bq. exact Bq.
  - exfalso. refine (m_complete word0 (XSeq (XCap (XStar dot)) r) _ (x ++ rest) [] None (Some x) at_end _ _ _); [| |rewrite app_nil_r; exact E].
    + apply mt_seq_iff. exists x, rest, (Some x). split; [reflexivity|]. split; [econstructor; constructor; exact Dx|].
      rewrite <- last_char_app, <- ?app_assoc. exact M.
    + discriminate.
Qed.

Lemma app_cases {A} (x1 x2 y1 y2 : list A) : x1 ++ x2 = y1 ++ y2 ->
  exists l, (x1 = y1 ++ l /\ y2 = l ++ x2) \/ (y1 = x1 ++ l /\ x2 = l ++ y2).
Proof.
  revert y1. induction x1 as [|a x1 IH]; intros y1 E; [exists y1; right; auto|]. destruct y1 as [|b y1]; [exists (a :: x1); left; auto|].
  injection E as <- E. destruct (IH y1 E) as [l [[-> ->]|[-> ->]]]; exists l; auto.
Qed.
Lemma figure_in_line indent mark t pre ds u : blanks indent -> is_whitespace mark = false -> digits ds -> In u [s2t " gas"; s2t "ms"] ->
  indent ++ mark :: 32 :: t = pre ++ s2t " (" ++ ds ++ u ++ s2t ")" -> ends_in_figure t.
Proof.
  intros B W D U E. change (indent ++ mark :: 32 :: t) with (indent ++ [mark] ++ 32 :: t) in E. rewrite app_assoc in E.
  assert (U' : In (u ++ s2t ")") [s2t " gas)"; s2t "ms)"]) by (destruct U as [<-|[<-|[]]]; [left|right; left]; reflexivity).
  set (R := ds ++ u ++ s2t ")") in E. change (s2t " (" ++ R) with (32 :: 40 :: R) in E.
  assert (FL : figure_like (40 :: R)) by (exists ds, (u ++ s2t ")"); auto).
  apply app_cases in E as [l [[E1 E2]|[E1 E2]]].
  - destruct l as [|a [|b l]].
    + injection E2 as <-. left. exact FL.
    + injection E2 as <- E2. apply app_inj_tail in E1 as [_ ->]. discriminate W.
    + injection E2 as <- <- E2. destruct l as [|c l].
      * cbn [app] in E2. exfalso. destruct D as [NE D]. destruct ds as [|d ds]; [congruence|]. inversion D; subst. unfold R in E2. injection E2 as -> _. lia.
      * exfalso. assert (I : In 40 indent).
        { destruct (exists_last (l := c :: l)) as [l' [z Z]]; [discriminate|]. rewrite Z in E1.
          change (pre ++ 32 :: 40 :: l' ++ [z]) with (pre ++ (32 :: 40 :: l') ++ [z]) in E1. rewrite app_assoc in E1. apply app_inj_tail in E1 as [-> _].
          apply in_or_app. right. right. left. reflexivity. }
        apply (proj1 (Forall_forall _ _) B) in I. discriminate I.
  - destruct l as [|a l].
    + injection E2 as ->. left. exact FL.
    + injection E2 as <- ->. right. exists l, (40 :: R). split; [reflexivity|exact FL].
Qed.

Lemma figure_unique x y ds ds' w : digits ds -> digits ds' -> x ++ s2t " (" ++ ds ++ w = y ++ s2t " (" ++ ds' ++ w -> x = y.
Proof.
  intros D D' E. rewrite !app_assoc in E. apply app_inv_tail in E.
  assert (N : forall d, digits d -> ~ In 40 d) by (intros d [_ F] I; apply (proj1 (Forall_forall _ _) F) in I; lia).
  change (s2t " (") with ([32] ++ [40]) in E. rewrite <- !app_assoc in E. cbn [app] in E. pose proof E as E0.
  change (x ++ 32 :: 40 :: ds) with (x ++ [32] ++ 40 :: ds) in E. change (y ++ 32 :: 40 :: ds') with (y ++ [32] ++ 40 :: ds') in E. rewrite (app_assoc x), (app_assoc y) in E.
  apply last_sep in E; [|apply N, D|apply N, D']. subst ds'. apply app_inv_tail in E0. exact E0.
Qed.
Lemma whitespace_nl c : is_whitespace c = false -> c <> NL.
Proof. intros H ->. discriminate H. Qed.

Lemma capture_figure indent mark title ds u : blanks indent -> is_whitespace mark = false -> ~ In NL title -> digits ds ->
  captures_line (line_re (figure_re u)) (indent ++ mark :: 32 :: title ++ s2t " (" ++ ds ++ u ++ s2t ")") = Some title.
Proof.
  intros B W N D. apply captures_after; [exact B|exact W|apply whitespace_nl, W| |exact N|].
  - intros mid rest cap' E _ M. apply mt_figure in M as [-> [ds' [D' ->]]]. f_equal. symmetry. exact (figure_unique _ _ _ _ _ D D' E).
  - eexists. split; [reflexivity|]. apply mt_figure. eauto.
Qed.
Lemma capture_not_figure indent mark t u : blanks indent -> is_whitespace mark = false -> In u [s2t " gas"; s2t "ms"] -> ~ ends_in_figure t ->
  captures_line (line_re (figure_re u)) (indent ++ mark :: 32 :: t) = None.
Proof.
  intros B W U NE. apply captures_none. intros cap' M. apply mt_line in M as [ws [c [x [m4 [p [E [_ [_ [_ [M _]]]]]]]]]].
  apply mt_figure in M as [_ [ds [D ->]]]. apply NE. apply (figure_in_line indent mark t (ws ++ c :: 32 :: x) ds u B W D U). rewrite E, <- app_assoc. reflexivity.
Qed.
Lemma capture_time_not_gas line x : line = x ++ s2t "ms)" -> captures_line LINE_WITH_GAS_RE line = None.
Proof.
  intros ->. apply captures_none. intros cap' M. apply mt_line in M as [ws [c [y [m4 [p [E [_ [_ [_ [M _]]]]]]]]]].
  apply mt_figure in M as [_ [ds [D ->]]]. apply (f_equal (fun t => firstn 3 (rev t))) in E.
  change (s2t "ms)") with ([109; 115; 41]) in E. rewrite rev_app_distr in E. cbn [rev app firstn] in E.
  change (ws ++ c :: 32 :: y ++ s2t " (" ++ ds ++ s2t " gas" ++ s2t ")") with (ws ++ (c :: 32 :: y ++ s2t " (" ++ ds ++ [32; 103; 97; 115; 41])) in E.
  change (c :: 32 :: y ++ s2t " (" ++ ds ++ [32; 103; 97; 115; 41]) with ((c :: 32 :: y) ++ s2t " (" ++ ds ++ [32; 103; 97; 115; 41]) in E.
  rewrite !app_assoc in E. rewrite rev_app_distr in E. cbn [rev app firstn] in E. discriminate E.
Qed.
Lemma capture_plain indent mark t : blanks indent -> is_whitespace mark = false -> ~ In NL t ->
  captures_line LINE_WITHOUT_GAS_OR_TIME_RE (indent ++ mark :: 32 :: t) = Some t.
Proof.
  intros B W N. apply captures_after; [exact B|exact W|apply whitespace_nl, W| |exact N|].
  - intros mid rest cap' E _ M. apply mt_nothing in M as [-> ->]. rewrite app_nil_r in E. subst; reflexivity.
  - exists []. split; [symmetry; apply app_nil_r|]. apply mt_nothing. auto.
Qed.
Lemma print_digits n : digits (print_usize n).
Proof.
  split; [|exact (print_usize_digits n)]. intros E. pose proof (print_usize_value n) as H. rewrite E in H. cbn in H.
  destruct n as [|n]; [vm_compute in E; discriminate|]. injection H as H. lia.
Qed.

(** C59: a line that reports a test is read correctly: the message is the test's title, if there is a figure after the title or
    the title does not look as if it ended in one. *)
Theorem C59_mocha_line : forall indent mark title f,
  blanks indent -> is_whitespace mark = false -> ~ In NL title -> f <> Nothing \/ ~ ends_in_figure title ->
  it_message (test_line indent mark title f) = Some title.
Proof.
  intros indent mark title f B W N C. unfold it_message, test_line. change (indent ++ [mark] ++ s2t " " ++ title ++ figure_text f) with (indent ++ mark :: 32 :: title ++ figure_text f).
  destruct f as [|n|n]; unfold figure_text.
  - rewrite app_nil_r. destruct C as [C|C]; [congruence|]. unfold LINE_WITH_GAS_RE, LINE_WITH_TIME_RE.
    rewrite capture_not_figure; [|exact B|exact W|left; reflexivity|exact C]. rewrite capture_not_figure; [|exact B|exact W|right; left; reflexivity|exact C].
    apply capture_plain; assumption.
  - rewrite (capture_time_not_gas _ ((indent ++ mark :: 32 :: title) ++ s2t " (" ++ print_usize n)) by (rewrite <- !app_assoc; reflexivity).
    unfold LINE_WITH_TIME_RE. change (s2t "ms)") with (s2t "ms" ++ s2t ")"). rewrite capture_figure; [reflexivity|exact B|exact W|exact N|apply print_digits].
  - unfold LINE_WITH_GAS_RE. change (s2t " gas)") with (s2t " gas" ++ s2t ")"). rewrite capture_figure; [reflexivity|exact B|exact W|exact N|apply print_digits].
Qed.
Print Assumptions C59_mocha_line.

(** C59, the part that is false: if the title looks as if it ended in a figure and Mocha prints none, then its end is cut off. *)
Theorem C59_mocha_figure_refuted : forall indent mark title like,
  blanks indent -> is_whitespace mark = false -> ~ In NL title -> figure_like like ->
  it_message (test_line indent mark (title ++ s2t " " ++ like) Nothing) = Some title.
Proof.
  intros indent mark title like B W N [ds [u [D [U ->]]]]. unfold it_message, test_line, figure_text. rewrite app_nil_r.
  change (indent ++ [mark] ++ s2t " " ++ title ++ s2t " " ++ s2t "(" ++ ds ++ u) with (indent ++ mark :: 32 :: title ++ s2t " (" ++ ds ++ u).
  destruct U as [<-|[<-|[]]].
  - unfold LINE_WITH_GAS_RE. change (s2t " gas)") with (s2t " gas" ++ s2t ")"). rewrite capture_figure by assumption. reflexivity.
  - rewrite (capture_time_not_gas _ ((indent ++ mark :: 32 :: title) ++ s2t " (" ++ ds)) by (rewrite <- !app_assoc; reflexivity).
    unfold LINE_WITH_TIME_RE. change (s2t "ms)") with (s2t "ms" ++ s2t ")"). rewrite capture_figure by assumption. reflexivity.
Qed.
Print Assumptions C59_mocha_figure_refuted.

(** C59: a test that the dry run of its file reports is known from then on, whatever else is printed: it is executed when it is
    its turn, without a warning. *)
Theorem C59_mocha_found : forall stdout t messages indent mark title f denied p im,
  dec stdout = Some t -> mocha_messages stdout = Ok messages -> In (test_line indent mark title f) (lines t) ->
  blanks indent -> is_whitespace mark = false -> ~ In NL title -> f <> Nothing \/ ~ ends_in_figure title ->
  it_exec denied p title (it_dry_run p messages im) = (it_dry_run p messages im, false, Ok (Some tt)).
Proof.
  intros stdout t messages indent mark title f denied p im D M I B W N C. unfold mocha_messages in M. rewrite D in M. injection M as <-.
  assert (J : In title (filter_map it_message (lines t))) by (apply filter_map_In; exists (test_line indent mark title f); split; [exact I|apply C59_mocha_line; assumption]).
  remember (filter_map it_message (lines t)) as ms eqn:E. clear E D I. unfold it_exec, it_dry_run at 1, it_set.
  replace (path_eqb p p) with true by (symmetry; apply L_Run.path_eqb_eq; reflexivity).
  assert (G : forall ms m0, In title ms \/ m0 title = Found -> fold_left (fun m t => msg_set t Found m) ms m0 title = Found).
  { induction ms0 as [|x ms0 IH]; intros m0 H; cbn [fold_left]; [destruct H as [[]|H]; exact H|]. apply IH. unfold msg_set at 1.
    destruct (text_eqb x title) eqn:Q; [right; reflexivity|]. destruct H as [[->|H]|H]; [rewrite text_eqb_refl in Q; discriminate|left; exact H|right; exact H]. }
  rewrite G by (left; exact J). reflexivity.
Qed.
Print Assumptions C59_mocha_found.

(** C59, the other part that is false: not only tests that ran are known.  A pending test's line has a dash as its mark, *)
Theorem C59_mocha_pending_refuted : forall indent title, blanks indent -> ~ In NL title -> ~ ends_in_figure title ->
  it_message (indent ++ s2t "- " ++ title) = Some title.
Proof.
  intros indent title B N C. pose proof (C59_mocha_line indent 45 title Nothing B eq_refl N (or_intror C)) as H.
  unfold test_line, figure_text in H. rewrite app_nil_r in H. exact H.
Qed.
Print Assumptions C59_mocha_pending_refuted.
(** and any word after two blanks, the title of a suite for example, counts as a test, too. *)
Theorem C59_mocha_suite_refuted : forall title, title <> [] -> ~ In 32 title -> ~ In NL title -> it_message (s2t "  " ++ title) = Some title.
Proof.
  intros title NE NS N.
  assert (U : forall r cap', mt word0 (line_re r) None (s2t "  " ++ title) [] None cap' ->
            exists x m4 prev, title = x ++ m4 /\ mt word0 r prev m4 [] (Some x) cap').
  { intros r cap' M. apply mt_line in M as [ws [c [x [m4 [p [E [_ [_ [_ [M _]]]]]]]]]]. change (s2t "  " ++ title) with (32 :: 32 :: title) in E.
    destruct ws as [|a [|b ws]]; cbn [app] in E.
    - injection E as _ E. eauto.
    - injection E as _ _ E. destruct NS. rewrite E. left. reflexivity.
    - injection E as _ _ E. destruct NS. rewrite E. apply in_or_app. right. right. left. reflexivity. }
  assert (F : forall u, captures_line (line_re (figure_re u)) (s2t "  " ++ title) = None).
  { intros u. apply captures_none. intros cap' M. apply U in M as [x [m4 [p [E M]]]]. apply mt_figure in M as [_ [ds [D ->]]].
    apply NS. rewrite E. apply in_or_app. right. left. reflexivity. }
  unfold it_message, LINE_WITH_GAS_RE, LINE_WITH_TIME_RE. rewrite !F. unfold captures_line.
  destruct (m _ _ _ _ _ _) as [c|] eqn:E.
  - apply m_sound in E as [mid [rest [cap' [E [M K]]]]]. destruct rest; [|discriminate]. rewrite app_nil_r in E. subst mid. injection K as <-.
    apply U in M as [x [m4 [p [-> M]]]]. apply mt_nothing in M as [-> ->]. rewrite app_nil_r. reflexivity.
  - exfalso. refine (m_complete word0 LINE_WITHOUT_GAS_OR_TIME_RE None (s2t "  " ++ title) [] None (Some title) at_end _ _ _); [|discriminate|rewrite app_nil_r; exact E].
    apply mt_line. eexists [], 32, title, [], _. split; [rewrite app_nil_r; reflexivity|]. split; [constructor|]. split; [discriminate|]. split; [exact N|]. split; [|reflexivity].
    apply mt_nothing. auto.
Qed.
Print Assumptions C59_mocha_suite_refuted.

(** ** Vitest *)
(** [v] is an object whose entry [k] is [x]. *)
Definition entry (v : json) (k : text) (x : json) : Prop := exists before after, v = JObject (before ++ (k, x) :: after) /\ ~ In k (map fst before).
Lemma get_spec k l x : get k l = Some x <-> exists before after, l = before ++ (k, x) :: after /\ ~ In k (map fst before).
Proof.
  induction l as [|[k' v] l IH]; cbn [get].
  - split; [discriminate|]. intros [b [a [E _]]]. destruct b; discriminate.
  - destruct (text_eqb k' k) eqn:Q.
    + apply text_eqb_eq in Q. subst k'. split.
      * intros H. injection H as ->. exists [], l. split; [reflexivity|intros []].
      * intros [b [a [E N]]]. destruct b as [|[k0 v0] b]; [injection E as -> _; reflexivity|]. injection E as <- <- _. destruct N. left. reflexivity.
    + apply text_eqb_neq in Q. rewrite IH. split.
      * intros [b [a [-> N]]]. exists ((k', v) :: b), a. split; [reflexivity|]. intros [I|I]; [contradiction|contradiction].
      * intros [b [a [E N]]]. destruct b as [|[k0 v0] b]; [injection E as -> _ _; congruence|]. injection E as -> -> ->. exists b, a. split; [reflexivity|]. intros I. apply N. right. exact I.
Qed.
Lemma entry_spec v k x : obind (as_object v) (get k) = Some x <-> entry v k x.
Proof.
  unfold entry. destruct v as [| | | |l|l]; cbn [as_object obind]; try (split; [discriminate|intros [b0 [a0 [E _]]]; discriminate]).
  etransitivity; [apply get_spec|]. split; intros [b [a [E N]]]; exists b, a; (split; [|exact N]); [rewrite E; reflexivity|injection E as ->; reflexivity].
Qed.
(** C59: with Vitest, exactly the titles of the assertion results in the test results are known. *)
Theorem C59_vitest : forall parse_json t value,
  parse_json t = Some value ->
  match extract_it_messages parse_json t with
  | Ok messages => exists results, entry value (s2t "testResults") (JArray results) /\
      forall title, In title messages <->
        exists result assertions assertion, In result results /\ entry result (s2t "assertionResults") (JArray assertions) /\
          In assertion assertions /\ entry assertion (s2t "title") (JString title)
  | Err e => e = NoTestResults /\ ~ exists results, entry value (s2t "testResults") (JArray results)
  | Panic => False
  end.
Proof.
  intros parse_json t value P. unfold extract_it_messages. rewrite P.
  destruct (obind (obind (as_object value) (get (s2t "testResults"))) as_array) as [results|] eqn:E.
  - exists results. split.
    + unfold obind at 1 in E. destruct (obind (as_object value) (get (s2t "testResults"))) as [v|] eqn:Q; [|discriminate]. apply entry_spec. rewrite Q. destruct v; try discriminate. injection E as ->. reflexivity.
    + intros title. rewrite filter_map_In. split.
      * intros [a [I H]]. apply in_concat in I as [l [I J]]. apply filter_map_In in I as [r [I K]].
        unfold obind at 1 in K. destruct (obind (as_object r) _) as [v|] eqn:Q; [|discriminate]. destruct v; try discriminate. injection K as ->. apply entry_spec in Q.
        unfold obind at 1 in H. destruct (obind (as_object a) _) as [v|] eqn:Q'; [|discriminate]. destruct v; try discriminate. injection H as ->. apply entry_spec in Q'. eauto 8.
      * intros [r [l [a [I [Q [J Q']]]]]]. apply entry_spec in Q, Q'. exists a. split; [|rewrite Q'; reflexivity]. apply in_concat. exists l. split; [|exact J].
        apply filter_map_In. exists r. split; [exact I|]. rewrite Q. reflexivity.
  - split; [reflexivity|]. intros [results H]. apply entry_spec in H. rewrite H in E. discriminate E.
Qed.
Print Assumptions C59_vitest.

(** C59: with Anchor, the JSON text is what follows the first five lines of the output. *)
Lemma skip_line_spec t r : skip_line t = Some r <-> exists l, ~ In NL l /\ t = l ++ NL :: r.
Proof.
  induction t as [|c t IH]; cbn [skip_line].
  - split; [discriminate|]. intros [l [_ E]]. destruct l; discriminate.
  - destruct (N.eqb_spec c NL) as [->|NE].
    + split.
      * intros H. injection H as ->. exists []. split; [intros []|reflexivity].
      * intros [l [N E]]. destruct l as [|a l]; [injection E as ->; reflexivity|]. injection E as <- _. destruct N. left. reflexivity.
    + rewrite IH. split.
      * intros [l [N ->]]. exists (c :: l). split; [|reflexivity]. intros [I|I]; [congruence|contradiction].
      * intros [l [N E]]. destruct l as [|a l]; [injection E as -> _; congruence|]. injection E as -> ->. exists l. split; [|reflexivity]. intros I. apply N. right. exact I.
Qed.
Theorem C59_anchor_json : forall t r, json_extractor t = Ok r <->
  exists l1 l2 l3 l4 l5, Forall (fun l => ~ In NL l) [l1; l2; l3; l4; l5] /\ t = l1 ++ NL :: l2 ++ NL :: l3 ++ NL :: l4 ++ NL :: l5 ++ NL :: r.
Proof.
  intros t r. unfold json_extractor. 
  assert (G : forall n t, skip_lines n t = Some r <-> exists ls, length ls = n /\ Forall (fun l => ~ In NL l) ls /\ t = concat (map (fun l => l ++ [NL]) ls) ++ r).
  { induction n as [|n IH]; intros u; cbn [skip_lines].
    - split; [intros H; injection H as ->; exists []; repeat split; constructor|]. intros [ls [L [_ ->]]]. destruct ls; [reflexivity|discriminate].
    - split.
      + intros H. destruct (skip_line u) as [v|] eqn:Q; [|discriminate]. apply skip_line_spec in Q as [l [N ->]]. cbn [obind] in H. apply IH in H as [ls [L [F ->]]].
        exists (l :: ls). split; [cbn; congruence|]. split; [constructor; assumption|]. cbn [map concat]. rewrite <- !app_assoc. reflexivity.
      + intros [ls [L [F ->]]]. destruct ls as [|l ls]; [discriminate|]. inversion F; subst. cbn [map concat]. rewrite <- !app_assoc. cbn [app].
        rewrite (proj2 (skip_line_spec (l ++ NL :: concat (map (fun l => l ++ [NL]) ls) ++ r) _)) by eauto. cbn [obind]. apply IH. exists ls. cbn in L. auto. }
  split.
  - destruct (skip_lines N_LINES_TO_SKIP t) as [v|] eqn:Q; [|discriminate]. intros H. injection H as ->. apply G in Q as [ls [L [F ->]]].
    destruct ls as [|l1 [|l2 [|l3 [|l4 [|l5 [|]]]]]]; try discriminate L. exists l1, l2, l3, l4, l5. split; [exact F|]. cbn [map concat]. rewrite <- !app_assoc. reflexivity.
  - intros [l1 [l2 [l3 [l4 [l5 [F ->]]]]]]. assert (Q : skip_lines N_LINES_TO_SKIP (l1 ++ NL :: l2 ++ NL :: l3 ++ NL :: l4 ++ NL :: l5 ++ NL :: r) = Some r).
    { apply G. exists [l1; l2; l3; l4; l5]. split; [reflexivity|]. split; [exact F|]. cbn [map concat]. rewrite <- !app_assoc. reflexivity. }
    rewrite Q. reflexivity.
Qed.
Print Assumptions C59_anchor_json.

(** Output that is not UTF-8 is an error. The messages come from all of the output, and from what follows the fifth line if Anchor runs Vitest. *)
Theorem C59_output : forall parse_json stdout,
  (dec stdout = None -> mocha_messages stdout = Err tt /\ forall extractor, vitest_messages parse_json extractor stdout = Err NotUtf8) /\
  (forall t, dec stdout = Some t -> vitest_messages parse_json None stdout = extract_it_messages parse_json t /\
    (forall l1 l2 l3 l4 l5 r, Forall (fun l => ~ In NL l) [l1; l2; l3; l4; l5] -> t = l1 ++ NL :: l2 ++ NL :: l3 ++ NL :: l4 ++ NL :: l5 ++ NL :: r ->
       vitest_messages parse_json (Some json_extractor) stdout = extract_it_messages parse_json r)).
Proof.
  intros parse_json stdout. unfold mocha_messages, vitest_messages. split.
  - intros H. rewrite H. split; [reflexivity|]. intros extractor. reflexivity.
  - intros t H. rewrite H. split; [reflexivity|]. intros l1 l2 l3 l4 l5 r F E. assert (J : json_extractor t = Ok r) by (apply C59_anchor_json; exists l1, l2, l3, l4, l5; auto).
    rewrite J. reflexivity.
Qed.
Print Assumptions C59_output.
Example C59_output_nonvacuous : dec [255%N] = None /\ dec (enc (s2t "{}")) = Some (s2t "{}").
Proof. split; vm_compute; reflexivity. Qed.

(** Concrete cases. *)
Example C59_nonvacuous :
  let line := test_line (s2t "    ") 10003 (s2t "adds (5ms)") (Time 78) in
  it_message line = Some (s2t "adds (5ms)") /\
  it_message (test_line (s2t "  ") 10003 (s2t "adds (5ms)") Nothing) = Some (s2t "adds") /\
  is_whitespace 10003 = false /\ figure_like (s2t "(5ms)") /\ ~ ends_in_figure (s2t "adds") /\
  mocha_messages (enc (line ++ [NL])) = Ok [s2t "adds (5ms)"] /\
  json_extractor (s2t "a" ++ [NL; NL; NL] ++ s2t "b" ++ [NL; NL] ++ s2t "{}") = Ok (s2t "{}").
Proof.
  cbv zeta. split; [vm_compute; reflexivity|]. split; [vm_compute; reflexivity|]. split; [vm_compute; reflexivity|]. split.
  - exists (s2t "5"), (s2t "ms)"). split; [split; [discriminate|constructor; [vm_compute; split; discriminate|constructor]]|]. split; [right; left; reflexivity|reflexivity].
  - split.
    + intros [[ds [u [_ [_ E]]]]|[x [y [E [ds [u [_ [_ ->]]]]]]]]; [discriminate|].
      assert (I : In 40 (s2t "adds")) by (rewrite E; apply in_or_app; right; right; left; reflexivity). vm_compute in I. intuition discriminate.
    + split; [vm_compute; reflexivity|vm_compute; reflexivity].
Qed.
Example C59_nonvacuous_vitest :
  let value := JObject [(s2t "testResults", JArray [JObject [(s2t "assertionResults", JArray [JObject [(s2t "status", JString (s2t "passed")); (s2t "title", JString (s2t "adds"))]])]])] in
  extract_it_messages (fun _ => Some value) [] = Ok [s2t "adds"].
Proof. vm_compute. reflexivity. Qed.
