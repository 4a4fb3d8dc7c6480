(** Lemmas about printing. *)
From Verif Require Import Base M_Text M_Rewriter M_Span M_Run S_Run L_Span M_Output S_Output.
From Coq Require Import Permutation.

Lemma warning_eqb_eq a b : warning_eqb a b = true <-> a = b.
Proof. unfold warning_eqb. destruct (warning_eq_dec a b); split; congruence. Qed.
Lemma warning_eqb_refl a : warning_eqb a a = true.
Proof. apply warning_eqb_eq. reflexivity. Qed.
Lemma has_warning_in w l : has_warning w l = true <-> In w l.
Proof.
  unfold has_warning. rewrite existsb_exists. split.
  - intros [x [H E]]. apply warning_eqb_eq in E. subst. exact H.
  - intros H. exists w. split; [exact H|apply warning_eqb_refl].
Qed.
Lemma denied_b o w : has_warning WAll (po_deny o) || has_warning w (po_deny o) = true <-> denied o w.
Proof. unfold denied. rewrite orb_true_iff, !has_warning_in. reflexivity. Qed.
Lemma allowed_b o w : has_warning WAll (po_allow o) || has_warning w (po_allow o) = true <-> allowed o w.
Proof. unfold allowed. rewrite orb_true_iff, !has_warning_in. reflexivity. Qed.
Lemma may_be_bug_b w : may_be_bug w = true <-> suspicious w.
Proof. unfold suspicious. destruct w; simpl; intuition congruence. Qed.

Lemma println_proper v x a msg : proper v x ->
  println x a msg = Some (if po_quiet (x_opts x) then [] else [OLine a msg]).
Proof.
  intros [o [-> | ->]].
  - unfold println, light_context; simpl. destruct (po_quiet o); reflexivity.
  - unfold println, run_context. destruct (e_rust_log v), (po_quiet o) eqn:Q, (e_terminal v); simpl; rewrite ?Q; reflexivity.
Qed.
Lemma bar_quiet v x n : proper v x -> po_quiet (x_opts x) = true -> bar x n = Some [].
Proof.
  intros [o [-> | ->]]; unfold bar; [reflexivity|].
  unfold run_context. destruct (e_rust_log v), (po_quiet o) eqn:Q, (e_terminal v); simpl; rewrite ?Q; congruence.
Qed.

(** The state of the warning machinery reflects the history. *)
Definition InvW (ops : list (context * print_op)) (outs : list (option (list out) * res text unit)) (m : wmap) : Prop :=
  forall w, w <> WAll ->
    (bug_msg_emitted (m w) = true <-> suspicious w /\ raised w ops) /\
    (allow_msg_emitted (m w) = true <-> appeared w outs) /\
    (warning_emitted (m w) = true <-> appeared w outs).

Definition no_warning (l : option (list out)) : Prop :=
  forall ls, l = Some ls -> forall w t, ~ In (OLine (AWarning w) t) ls.

Lemma note_no_warning v x msg : no_warning (note v x msg).
Proof.
  intros ls H w t I. unfold note, println in H. destruct (po_quiet (x_opts x)); [injection H as <-; destruct I|].
  destruct (x_printer x); [| |destruct (x_progress x); [|discriminate]]; injection H as <-; simpl in I; intuition discriminate.
Qed.
Lemma println_no_warning x a msg : (forall w, a <> AWarning w) -> no_warning (println x a msg).
Proof.
  intros Ha ls H w t I. unfold println in H.
  destruct (x_printer x); [| |destruct (x_progress x); [|discriminate]]; injection H as <-; simpl in I.
  - destruct I.
  - destruct I as [I|[]]; injection I as E _. exact (Ha w E).
  - destruct I as [I|[]]; injection I as E _. exact (Ha w E).
Qed.
Lemma nil_no_warning : no_warning (Some []).
Proof. intros ls H w t I. injection H as <-. destruct I. Qed.
Lemma seq_no_warning a b : no_warning a -> no_warning b -> no_warning (seq a b).
Proof.
  intros Ha Hb ls H w t I. destruct a as [la|], b as [lb|]; try discriminate. injection H as <-.
  apply in_app_iff in I as [I|I]; [exact (Ha la eq_refl w t I)|exact (Hb lb eq_refl w t I)].
Qed.
Lemma emit_no_warning v x r : no_warning (emit_to_console v x r).
Proof.
  unfold emit_to_console. destruct (negb _ && _); [|apply nil_no_warning].
  apply println_no_warning. discriminate.
Qed.
Lemma dump_loop_no_warning v x rs : forall other, no_warning (fst (dump_loop v x rs other)).
Proof.
  induction rs as [|r rs IH]; intros other; [apply nil_no_warning|]. simpl.
  specialize (IH (other || negb (is_passed (rm_outcome r)))).
  destruct (dump_loop v x rs _) as [l o']. simpl in *. apply seq_no_warning; [apply emit_no_warning|exact IH].
Qed.
Lemma dump_no_warning v x rs : no_warning (dump v x rs).
Proof.
  unfold dump. pose proof (dump_loop_no_warning v x rs false) as H. destruct (dump_loop v x rs false) as [l o].
  apply seq_no_warning; [exact H|]. destruct (negb _ && _); [apply note_no_warning|apply nil_no_warning].
Qed.
Lemma dump_spans_no_warning v x contents ss : no_warning (fst (dump_spans v x contents ss)).
Proof.
  induction ss as [|s ss IH]; [apply nil_no_warning|]. simpl.
  destruct (source_text _ _) as [t| |]; try apply nil_no_warning.
  destruct (println x _ _) as [l|] eqn:E.
  - destruct (dump_spans v x contents ss) as [l' r]. simpl in *.
    apply (seq_no_warning (Some l) l'); [|exact IH].
    rewrite <- E. apply println_no_warning. discriminate.
  - intros ls H. discriminate.
Qed.
Lemma counts_no_warning v x files : no_warning (dump_candidate_counts v x files).
Proof.
  unfold dump_candidate_counts. generalize (count_sort (map file_count files)) as cs.
  intros cs. generalize (list_max (map (fun c => length (print_usize (fst c))) cs)). intros wd.
  induction cs as [|c cs IH]; [apply nil_no_warning|]. simpl. apply seq_no_warning; [|exact IH].
  apply println_no_warning. discriminate.
Qed.

Lemma appeared_app w a b : appeared w (a ++ b) <-> appeared w a \/ appeared w b.
Proof.
  unfold appeared. split.
  - intros [l [r [t [H I]]]]. apply in_app_iff in H as [H|H]; [left|right]; eauto.
  - intros [[l [r [t [H I]]]]|[l [r [t [H I]]]]]; exists l, r, t; split; trivial; apply in_app_iff; auto.
Qed.
Lemma raised_app w a b : raised w (a ++ b) <-> raised w a \/ raised w b.
Proof.
  unfold raised. split.
  - intros [x [s [m [o H]]]]. apply in_app_iff in H as [H|H]; [left|right]; eauto 6.
  - intros [[x [s [m [o H]]]]|[x [s [m [o H]]]]]; exists x, s, m, o; apply in_app_iff; auto.
Qed.
Lemma raised_one w x op : raised w [(x, op)] <-> exists s m b, op = OpWarn w s m b.
Proof.
  unfold raised. split.
  - intros [x' [s [m [b [H|[]]]]]]. injection H as -> ->. eauto.
  - intros [s [m [b ->]]]. exists x, s, m, b. left. reflexivity.
Qed.
Lemma appeared_one w l r : appeared w [(l, r)] <-> exists ls t, l = Some ls /\ In (OLine (AWarning w) t) ls.
Proof.
  unfold appeared. split.
  - intros [ls [r' [t [[H|[]] I]]]]. injection H as -> ->. eauto.
  - intros [ls [t [-> I]]]. exists ls, r, t. split; [left; reflexivity|exact I].
Qed.
Lemma not_appeared_one w l r : no_warning l -> ~ appeared w [(l, r)].
Proof. intros H A. apply appeared_one in A as [ls [t [E I]]]. exact (H ls E w t I). Qed.

Lemma warning_name_word w : warning_name w = s2t (warning_word w).
Proof. destruct w; reflexivity. Qed.
Lemma inv_other ops outs m x op l r : InvW ops outs m -> (forall w s t b, op <> OpWarn w s t b) -> no_warning l ->
  InvW (ops ++ [(x, op)]) (outs ++ [(l, r)]) m.
Proof.
  intros H Hop Hl w Hw. destruct (H w Hw) as [H1 [H2 H3]].
  rewrite raised_app, appeared_app, raised_one.
  pose proof (not_appeared_one w l r Hl).
  assert (~ exists s t b, op = OpWarn w s t b) by (intros [s [t [b E]]]; exact (Hop _ _ _ _ E)).
  tauto.
Qed.

(** What one warning does, in terms of the history. *)
Definition warn_effect (v : env) (x : context) (w : warning) (source : option text) (msg : text) (once : bool)
  (raised_before appeared_before : bool) (l : option (list out)) (r : res text unit) : Prop :=
  let o := x_opts x in
  let bug := may_be_bug w && negb raised_before in
  (denied o w -> l = Some [] /\ r = Err (if bug then append_paragraph msg BUG_MSG else msg)) /\
  (~ denied o w -> r = Ok tt) /\
  (~ denied o w -> allowed o w \/ po_quiet o = true -> l = Some []) /\
  (~ denied o w -> ~ allowed o w -> po_quiet o = false ->
     l = Some (if once && appeared_before then [] else [OLine (AWarning w)
                 (warning_line v w source msg bug (negb appeared_before))])).

Lemma paint_warning v : paint v "33" (s2t "Warning") =
  if e_terminal v then 27%N :: s2t "[1;33mWarning" ++ 27%N :: s2t "[0m" else s2t "Warning".
Proof. unfold paint. destruct (e_terminal v); reflexivity. Qed.

Lemma warn_all_other v x m w source msg once : w <> WAll ->
  warn_internal v x m w source msg once =
    (let st := m w in
    let bug := may_be_bug w && negb (bug_msg_emitted st) in
    let msg := if bug then append_paragraph msg BUG_MSG else msg in
    let st := WState (allow_msg_emitted st) (bug || bug_msg_emitted st) (warning_emitted st) in
    let o := x_opts x in
    if has_warning WAll (po_deny o) || has_warning w (po_deny o)
    then (wmap_set m w st, Some [], Err msg)
    else if po_quiet o || has_warning WAll (po_allow o) || has_warning w (po_allow o)
            || (once && warning_emitted st)
    then (wmap_set m w st, Some [], Ok tt)
    else
      let allow_msg := if allow_msg_emitted st then []
                       else NL :: s2t "Silence this warning with: --allow " ++ warning_name w in
      let line := (match source with Some s => s ++ s2t ": " | None => [] end)
                    ++ paint v "33" (s2t "Warning") ++ s2t ": " ++ msg ++ allow_msg in
      match println x (AWarning w) line with
      | None => (wmap_set m w (WState true (bug_msg_emitted st) (warning_emitted st)), None, Panic)
      | Some l => (wmap_set m w (WState true (bug_msg_emitted st) true), Some l, Ok tt)
      end).
Proof. intros H. destruct w; try reflexivity. destruct H; reflexivity. Qed.

Lemma bool_iff (b : bool) (P : Prop) : (b = true <-> P) -> (b = false <-> ~ P).
Proof. destruct b; intuition congruence. Qed.

Lemma warn_step v x m w source msg once : proper v x -> w <> WAll ->
  allow_msg_emitted (m w) = warning_emitted (m w) ->
  exists st l r, warn_internal v x m w source msg once = (wmap_set m w st, l, r) /\
  bug_msg_emitted st = may_be_bug w || bug_msg_emitted (m w) /\
  warn_effect v x w source msg once (bug_msg_emitted (m w)) (warning_emitted (m w)) l r /\
  allow_msg_emitted st = warning_emitted st /\
  (warning_emitted st = true <-> warning_emitted (m w) = true \/ exists ls t, l = Some ls /\ In (OLine (AWarning w) t) ls) /\
  (forall ls w' t, l = Some ls -> In (OLine (AWarning w') t) ls -> w' = w).
Proof.
  intros P Hw Ha. rewrite (warn_all_other _ _ _ _ _ _ _ Hw). cbv zeta.
  set (bug := may_be_bug w && negb (bug_msg_emitted (m w))).
  set (msg' := if bug then append_paragraph msg BUG_MSG else msg).
  assert (Hb : bug || bug_msg_emitted (m w) = may_be_bug w || bug_msg_emitted (m w)).
  { unfold bug. destruct (may_be_bug w), (bug_msg_emitted (m w)); reflexivity. }
  destruct (has_warning WAll (po_deny (x_opts x)) || has_warning w (po_deny (x_opts x))) eqn:D.
  { assert (D' : denied (x_opts x) w) by (apply denied_b; exact D).
    eexists _, _, _. split; [reflexivity|]. simpl. split; [exact Hb|]. split; [|split; [exact Ha|split]].
    - unfold warn_effect. fold bug. fold msg'. split; [|split; [|split]]; try contradiction. intros _. split; reflexivity.
    - split; [auto|]. intros [H|[ls [t [E I]]]]; [exact H|]. injection E as <-. destruct I.
    - intros ls w' t E I. injection E as <-. destruct I. }
  assert (D' : ~ denied (x_opts x) w) by (rewrite <- denied_b, D; discriminate).
  rewrite <- orb_assoc.
  destruct (po_quiet (x_opts x)) eqn:Q; cbn [orb].
  { eexists _, _, _. split; [reflexivity|]. simpl. split; [exact Hb|]. split; [|split; [exact Ha|split]].
    - unfold warn_effect. split; [|split; [|split]]; try contradiction; try reflexivity. congruence.
    - split; [auto|]. intros [H|[ls [t [E I]]]]; [exact H|]. injection E as <-. destruct I.
    - intros ls w' t E I. injection E as <-. destruct I. }
  rewrite orb_assoc.
  destruct (has_warning WAll (po_allow (x_opts x)) || has_warning w (po_allow (x_opts x))) eqn:A; cbn [orb].
  { assert (A' : allowed (x_opts x) w) by (apply allowed_b; exact A).
    eexists _, _, _. split; [reflexivity|]. simpl. split; [exact Hb|]. split; [|split; [exact Ha|split]].
    - unfold warn_effect. split; [|split; [|split]]; try contradiction; try reflexivity.
    - split; [auto|]. intros [H|[ls [t [E I]]]]; [exact H|]. injection E as <-. destruct I.
    - intros ls w' t E I. injection E as <-. destruct I. }
  assert (A' : ~ allowed (x_opts x) w) by (rewrite <- allowed_b, A; discriminate).
  cbn [warning_emitted allow_msg_emitted bug_msg_emitted].
  destruct (once && warning_emitted (m w)) eqn:O.
  { eexists _, _, _. split; [reflexivity|]. simpl. split; [exact Hb|]. split; [|split; [exact Ha|split]].
    - unfold warn_effect. rewrite O. split; [|split; [|split]]; try contradiction; try reflexivity.
    - split; [auto|]. intros [H|[ls [t [E I]]]]; [exact H|]. injection E as <-. destruct I.
    - intros ls w' t E I. injection E as <-. destruct I. }
  rewrite (println_proper v x _ _ P), Q.
  eexists _, _, _. split; [reflexivity|]. simpl. split; [exact Hb|]. split; [|split; [reflexivity|split]].
  - unfold warn_effect. rewrite O. split; [|split; [|split]]; try contradiction; try reflexivity.
    + intros _ [H|H]; [contradiction|congruence].
    + intros _ _ _. do 3 f_equal. unfold warning_line. rewrite <- warning_name_word. fold bug. rewrite paint_warning, Ha.
      unfold msg', append_paragraph. 
      destruct (warning_emitted (m w)); cbn [negb]; destruct bug; reflexivity.
  - split; [|auto]. intros _. right. eexists _, _. split; [reflexivity|]. left. reflexivity.
  - intros ls w' t E I. injection E as <-. destruct I as [I|[]]. injection I as -> _. reflexivity.
Qed.

(** ** Histories *)

Lemma do_ops_app v ops1 : forall m ops2 m1 o1 m2 o2,
  do_ops v m ops1 = (m1, o1) -> do_ops v m1 ops2 = (m2, o2) -> do_ops v m (ops1 ++ ops2) = (m2, o1 ++ o2).
Proof.
  induction ops1 as [|[x op] ops1 IH]; intros m ops2 m1 o1 m2 o2 H1 H2.
  - injection H1 as <- <-. exact H2.
  - simpl in *. destruct (do_op v x m op) as [[m' l] r] eqn:E.
    destruct (do_ops v m' ops1) as [m'' ls] eqn:E'. injection H1 as <- <-.
    rewrite (IH _ _ _ _ _ _ E' H2). reflexivity.
Qed.

Lemma do_ops_length v ops : forall m, length (snd (do_ops v m ops)) = length ops.
Proof.
  induction ops as [|[x op] ops IH]; intros m; [reflexivity|]. simpl.
  destruct (do_op v x m op) as [[m' l] r]. specialize (IH m'). destruct (do_ops v m' ops). simpl in *. congruence.
Qed.

Lemma warn_not_all v x m w s t b w0 : w0 <> WAll -> w = WAll -> warn_internal v x m w s t b = (m, Some [], Panic).
Proof. intros _ ->. reflexivity. Qed.

Lemma inv_nil : InvW [] [] wmap_empty.
Proof.
  intros w _. simpl. unfold raised, appeared. split; [|split]; split; try discriminate.
  - intros [_ [x [s [m [b []]]]]].
  - intros [l [r [t [[] _]]]].
  - intros [l [r [t [[] _]]]].
Qed.

Lemma bool_eq_iff (a b : bool) P : (a = true <-> P) -> (b = true <-> P) -> a = b.
Proof. destruct a, b; intuition congruence. Qed.

Lemma inv_step v ops outs m x op m' l r : InvW ops outs m -> proper v x -> do_op v x m op = (m', l, r) ->
  InvW (ops ++ [(x, op)]) (outs ++ [(l, r)]) m'.
Proof.
  intros H P E.
  destruct op as [w s t b|t|rm|rs|c fl|fl|t|n]; simpl in E.
  2-4,6-8: (unfold of_out in E; injection E as <- <- <-; apply inv_other; [exact H|discriminate|]).
  2: apply note_no_warning. 2: apply emit_no_warning. 2: apply dump_no_warning. 2: apply counts_no_warning.
  2: apply println_no_warning; discriminate.
  2: { intros ls Hl w t I. injection Hl as <-. destruct (x_progress x); simpl in I; intuition discriminate. }
  2: { unfold dump_candidates in E. destruct (dump_spans v x c _) as [l0 r0] eqn:E0. injection E as <- <- <-.
       apply inv_other; [exact H|discriminate|].
       change l0 with (fst (l0, r0)). rewrite <- E0. apply dump_spans_no_warning. }
  destruct (warning_eq_dec w WAll) as [->|Hw].
  { simpl in E. injection E as <- <- <-. intros w' Hw'. destruct (H w' Hw') as [H1 [H2 H3]].
    rewrite raised_app, appeared_app, raised_one.
    pose proof (not_appeared_one w' (Some []) Panic nil_no_warning).
    assert (~ exists s0 m b0, OpWarn WAll s t b = OpWarn w' s0 m b0) by (intros [? [? [? E]]]; congruence).
    tauto. }
  destruct (H w Hw) as [H1 [H2 H3]].
  destruct (warn_step v x m w s t b P Hw (bool_eq_iff _ _ _ H2 H3)) as [st [l0 [r0 [E0 [Eb [_ [Ea [Ew Eo]]]]]]]].
  rewrite E0 in E. injection E as <- <- <-.
  intros w' Hw'. unfold wmap_set. destruct (warning_eqb w w') eqn:Eq.
  - apply warning_eqb_eq in Eq. subst w'. rewrite raised_app, appeared_app, raised_one, appeared_one, Ea, Ew, Eb.
    rewrite orb_true_iff, H1, may_be_bug_b, H3.
    assert (exists s0 m0 b0, OpWarn w s t b = OpWarn w s0 m0 b0) by eauto. tauto.
  - destruct (H w' Hw') as [K1 [K2 K3]]. rewrite raised_app, appeared_app, raised_one.
    assert (~ exists s0 m0 b0, OpWarn w s t b = OpWarn w' s0 m0 b0).
    { intros [? [? [? E]]]. injection E as -> _. rewrite warning_eqb_refl in Eq. discriminate. }
    assert (~ appeared w' [(l0, r0)]).
    { intros A. apply appeared_one in A as [ls [t' [E I]]]. rewrite (Eo _ _ _ E I), warning_eqb_refl in Eq. discriminate. }
    tauto.
Qed.

Lemma inv_ops v ops2 : forall ops1 outs1 m1, InvW ops1 outs1 m1 -> (forall x op, In (x, op) ops2 -> proper v x) ->
  forall m2 outs2, do_ops v m1 ops2 = (m2, outs2) -> InvW (ops1 ++ ops2) (outs1 ++ outs2) m2.
Proof.
  induction ops2 as [|[x op] ops2 IH]; intros ops1 outs1 m1 H P m2 outs2 E.
  - injection E as <- <-. rewrite !app_nil_r. exact H.
  - simpl in E. destruct (do_op v x m1 op) as [[m' l] r] eqn:E1. destruct (do_ops v m' ops2) as [m'' ls] eqn:E2.
    injection E as <- <-.
    change ((x, op) :: ops2) with ([(x, op)] ++ ops2). change ((l, r) :: ls) with ([(l, r)] ++ ls).
    rewrite !app_assoc. apply (IH _ _ _ (inv_step v ops1 outs1 m1 x op m' l r H (P x op (or_introl eq_refl)) E1)).
    + intros y op' I. apply (P y op'). right. exact I.
    + exact E2.
Qed.

(** ** The whole effect of a warning after a history *)
Lemma warn_after v pre x w source msg once m outs : (forall y op, In (y, op) pre -> proper v y) -> proper v x -> w <> WAll ->
  do_ops v wmap_empty pre = (m, outs) ->
  exists m' l r (rb ab : bool), do_op v x m (OpWarn w source msg once) = (m', l, r) /\
    (ab = true <-> appeared w outs) /\
    (suspicious w -> (rb = true <-> raised w pre)) /\
    warn_effect v x w source msg once rb ab l r.
Proof.
  intros P Px Hw E. pose proof (inv_ops v pre [] [] wmap_empty inv_nil P m outs E) as H.
  destruct (H w Hw) as [H1 [H2 H3]].
  destruct (warn_step v x m w source msg once Px Hw (bool_eq_iff _ _ _ H2 H3)) as [st [l [r [E0 [Eb [He _]]]]]].
  exists (wmap_set m w st), l, r, (bug_msg_emitted (m w)), (warning_emitted (m w)).
  simpl in H3, H1. split; [exact E0|]. split; [exact H3|]. split; [|exact He]. intros S. rewrite H1. tauto.
Qed.

(** ** At most one line for a kind raised only with the once flag *)
Lemma warning_lines_app w a b : warning_lines w (a ++ b) = warning_lines w a ++ warning_lines w b.
Proof. apply flat_map_app. Qed.
Lemma warning_lines_none w l : (forall t, ~ In (OLine (AWarning w) t) l) -> warning_lines w l = [].
Proof.
  induction l as [|o l IH]; intros H; [reflexivity|]. simpl.
  rewrite IH; [|intros t I; apply (H t); right; exact I]. rewrite app_nil_r.
  destruct o as [[w'| | | | |] t|n]; try reflexivity.
  destruct (warning_eqb w w') eqn:E; [|reflexivity]. apply warning_eqb_eq in E. subst w'.
  destruct (H t). left. reflexivity.
Qed.
Lemma warning_lines_some w l : warning_lines w l <> [] -> exists t, In (OLine (AWarning w) t) l.
Proof.
  induction l as [|o l IH]; intros H; [exfalso; apply H; reflexivity|]. simpl in H.
  destruct o as [[w'| | | | |] t|n]; simpl in H.
  1: destruct (warning_eqb w w') eqn:E; [apply warning_eqb_eq in E; subst w'; exists t; left; reflexivity|].
  all: destruct (IH H) as [t' I]; exists t'; right; exact I.
Qed.

Definition lines_of (w : warning) (outs : list (option (list out) * res text unit)) : list text := warning_lines w (stdout outs).

Lemma stdout_app a b : stdout (a ++ b) = stdout a ++ stdout b.
Proof. apply flat_map_app. Qed.

Lemma appeared_lines w outs : appeared w outs <-> lines_of w outs <> [].
Proof.
  unfold lines_of. split.
  - intros [l [r [t [H I]]]] E.
    assert (J : In t (warning_lines w (stdout outs))).
    { unfold warning_lines. apply in_flat_map. exists (OLine (AWarning w) t). split.
      - unfold stdout. apply in_flat_map. exists (Some l, r). split; [exact H|exact I].
      - rewrite warning_eqb_refl. left. reflexivity. }
    rewrite E in J. destruct J.
  - intros H. apply warning_lines_some in H as [t I]. unfold stdout in I. apply in_flat_map in I as [[l r] [I J]].
    simpl in J. destruct l as [l|]; [|destruct J]. exists l, r, t. split; assumption.
Qed.

Lemma do_op_lines v x m op m' l r w : do_op v x m op = (m', l, r) ->
  (forall s t b, op <> OpWarn w s t b) -> warning_lines w (match l with Some l => l | None => [] end) = [].
Proof.
  intros E Hop. apply warning_lines_none. intros t I.
  assert (N : no_warning l \/ exists w' s t b, op = OpWarn w' s t b).
  { destruct op; simpl in E; try (left; unfold of_out in E; injection E as <- <- <-).
    - right. eauto.
    - apply note_no_warning.
    - apply emit_no_warning.
    - apply dump_no_warning.
    - left. unfold dump_candidates in E. destruct (dump_spans v x contents _) as [l0 r0] eqn:E0. injection E as <- <- <-.
      change l0 with (fst (l0, r0)). rewrite <- E0. apply dump_spans_no_warning.
    - apply counts_no_warning.
    - apply println_no_warning. discriminate.
    - intros ls Hl w' t' I'. injection Hl as <-. destruct (x_progress x); simpl in I'; intuition discriminate. }
  destruct l as [l|]; [|destruct I]. destruct N as [N|[w' [s [t' [b ->]]]]]; [exact (N l eq_refl w t I)|].
  assert (Hne : w' <> w) by (intros ->; exact (Hop _ _ _ eq_refl)).
  simpl in E. destruct (warning_eq_dec w' WAll) as [->|Ha]; [simpl in E; injection E as <- <- <-; destruct I|].
  rewrite (warn_all_other _ _ _ _ _ _ _ Ha) in E. cbv zeta in E.
  destruct (_ || _) in E; [injection E as <- <- <-; destruct I|].
  destruct (_ || _) in E; [injection E as <- <- <-; destruct I|].
  unfold println in E. destruct (x_printer x); [| |destruct (x_progress x)]; injection E as <- E _; subst; simpl in I; try discriminate.
  - destruct I.
  - destruct I as [I|[]]. injection I as -> _. contradiction.
  - destruct I as [I|[]]. injection I as -> _. contradiction.
Qed.

Lemma once_once v w ops2 : w <> WAll -> forall ops1 outs1 m1, InvW ops1 outs1 m1 ->
  (forall x op, In (x, op) ops2 -> proper v x) ->
  (forall x s t b, In (x, OpWarn w s t b) ops2 -> b = true) ->
  length (lines_of w outs1) <= 1 -> length (lines_of w (outs1 ++ snd (do_ops v m1 ops2))) <= 1.
Proof.
  intros Hw. induction ops2 as [|[x op] ops2 IH]; intros ops1 outs1 m1 H P O L.
  - simpl. rewrite app_nil_r. exact L.
  - simpl. destruct (do_op v x m1 op) as [[m' l] r] eqn:E. destruct (do_ops v m' ops2) as [m'' ls] eqn:E2. simpl.
    pose proof (inv_step v ops1 outs1 m1 x op m' l r H (P x op (or_introl eq_refl)) E) as H'.
    change ((l, r) :: ls) with ([(l, r)] ++ ls). rewrite app_assoc.
    replace ls with (snd (do_ops v m' ops2)) by (rewrite E2; reflexivity).
    apply (IH _ _ _ H').
    + intros y op' I. apply (P y op'). right. exact I.
    + intros y s t b I. apply (O y s t b). right. exact I.
    + unfold lines_of. rewrite stdout_app, warning_lines_app, app_length.
      assert (D : (exists s t b, op = OpWarn w s t b) \/ forall s t b, op <> OpWarn w s t b).
      { destruct op as [w' s t b| | | | | | |]; try (right; intros; discriminate).
        destruct (warning_eq_dec w' w) as [->|N]; [left; eauto|right; intros ? ? ? J; injection J as -> _; exact (N eq_refl)]. }
      destruct D as [[s [t [b ->]]]|D].
      * assert (b = true) by (apply (O x s t b); left; reflexivity). subst b.
        destruct (H w Hw) as [H1 [H2 H3]].
        destruct (warn_step v x m1 w s t true (P x _ (or_introl eq_refl)) Hw (bool_eq_iff _ _ _ H2 H3))
          as [st [l0 [r0 [E0 [_ [He _]]]]]].
        simpl in E. rewrite E0 in E. injection E as <- <- <-. unfold warn_effect in He. destruct He as [He1 [He2 [He3 He4]]].
        assert (Z : length (lines_of w outs1) = 0 \/ warning_emitted (m1 w) = true).
        { destruct (warning_emitted (m1 w)) eqn:Z; [right; reflexivity|left].
          destruct (lines_of w outs1) eqn:Z'; [reflexivity|]. exfalso. apply bool_iff in H3. apply (proj1 H3 eq_refl).
          apply appeared_lines. rewrite Z'. discriminate. }
        unfold lines_of in *.
        assert (Q : l0 = Some [] \/ exists t', l0 = Some [OLine (AWarning w) t'] /\ warning_emitted (m1 w) = false).
        { destruct (has_warning WAll (po_deny (x_opts x)) || has_warning w (po_deny (x_opts x))) eqn:D1.
          { left. apply denied_b in D1. apply (He1 D1). }
          assert (D1' : ~ denied (x_opts x) w) by (rewrite <- denied_b, D1; discriminate).
          destruct (has_warning WAll (po_allow (x_opts x)) || has_warning w (po_allow (x_opts x))) eqn:D2.
          { left. apply allowed_b in D2. apply He3; auto. }
          assert (D2' : ~ allowed (x_opts x) w) by (rewrite <- allowed_b, D2; discriminate).
          destruct (po_quiet (x_opts x)) eqn:Qu; [left; apply He3; auto|].
          specialize (He4 D1' D2' eq_refl). simpl in He4. destruct (warning_emitted (m1 w)); [left; exact He4|right; eauto]. }
        destruct Q as [-> | [t' [-> Q]]]; simpl; [lia|]. rewrite warning_eqb_refl. simpl.
        destruct Z as [Z|Z]; [lia|congruence].
      * simpl. rewrite app_nil_r, (do_op_lines _ _ _ _ _ _ _ _ E D). simpl. unfold lines_of in L. lia.
Qed.

(** ** Quiet *)
Lemma note_quiet v x msg : po_quiet (x_opts x) = true -> note v x msg = Some [].
Proof. intros Q. unfold note. rewrite Q. reflexivity. Qed.
Lemma emit_quiet v x r : po_quiet (x_opts x) = true -> emit_to_console v x r = Some [].
Proof. intros Q. unfold emit_to_console. rewrite Q. reflexivity. Qed.
Lemma dump_quiet v x rs : po_quiet (x_opts x) = true -> dump v x rs = Some [].
Proof.
  intros Q. unfold dump.
  assert (H : forall other, fst (dump_loop v x rs other) = Some []).
  { induction rs as [|r rs IH]; intros other; [reflexivity|]. simpl.
    specialize (IH (other || negb (is_passed (rm_outcome r)))). destruct (dump_loop v x rs _) as [l o'].
    simpl in *. rewrite (emit_quiet v x r Q), IH. reflexivity. }
  specialize (H false). destruct (dump_loop v x rs false) as [l o]. simpl in H. subst l.
  rewrite (note_quiet v x _ Q). destruct (_ && _); reflexivity.
Qed.
Lemma quiet_op v x m op m' l r : proper v x -> po_quiet (x_opts x) = true -> do_op v x m op = (m', l, r) -> l = Some [].
Proof.
  intros P Q E. destruct op; simpl in E; try (unfold of_out in E; injection E as <- <- <-).
  - destruct (warning_eq_dec w WAll) as [->|Hw]; [simpl in E; injection E as <- <- <-; reflexivity|].
    rewrite (warn_all_other _ _ _ _ _ _ _ Hw) in E. cbv zeta in E. rewrite Q in E. cbn [orb] in E.
    destruct (_ || _) in E; injection E as <- <- <-; reflexivity.
  - apply note_quiet, Q.
  - apply emit_quiet, Q.
  - apply dump_quiet, Q.
  - unfold dump_candidates in E. 
    assert (H : forall ss, fst (dump_spans v x contents ss) = Some []).
    { induction ss as [|s ss IH]; [reflexivity|]. simpl. destruct (source_text _ _); try reflexivity.
      rewrite (println_proper v x _ _ P), Q. destruct (dump_spans v x contents ss). simpl in *. subst. reflexivity. }
    specialize (H (flat_map (fun f => stm_spans (snd f)) files)).
    destruct (dump_spans v x contents _). simpl in H. injection E as <- <- <-. exact H.
  - unfold dump_candidate_counts.
    generalize (list_max (map (fun c => length (print_usize (fst c))) (count_sort (map file_count files)))).
    induction (count_sort (map file_count files)) as [|c cs IH]; intros wd; [reflexivity|]. simpl. rewrite IH.
    rewrite (println_proper v x _ _ P), Q. reflexivity.
  - rewrite (println_proper v x _ _ P), Q. reflexivity.
  - apply (bar_quiet v); assumption.
Qed.
Lemma quiet_ops v ops : forall m, (forall x op, In (x, op) ops -> proper v x /\ po_quiet (x_opts x) = true) ->
  stdout (snd (do_ops v m ops)) = [].
Proof.
  induction ops as [|[x op] ops IH]; intros m H; [reflexivity|]. simpl.
  destruct (do_op v x m op) as [[m' l] r] eqn:E. specialize (IH m').
  destruct (do_ops v m' ops) as [m'' ls]. simpl in *.
  destruct (H x op (or_introl eq_refl)) as [P Q]. rewrite (quiet_op v x m op m' l r P Q E). simpl. apply IH.
  intros y op' I. apply (H y op'). right. exact I.
Qed.

(** ** Removals *)
Lemma console_span_eq v s : console_span v s = console_path v (sp_path s) ++
  s2t ":" ++ print_usize (line (sp_start s)) ++ s2t ":" ++ print_usize (column (sp_start s) + 1)
           ++ s2t "-" ++ print_usize (line (sp_end s)) ++ s2t ":" ++ print_usize (column (sp_end s) + 1).
Proof. reflexivity. Qed.
Lemma outcome_name_word x : outcome_name x = s2t (outcome_word x).
Proof. destruct x; reflexivity. Qed.
Lemma shown_b o r : negb (po_quiet o) && (po_verbose o || is_passed (rm_outcome r)) = shown o r.
Proof. unfold shown. destruct (po_quiet o), (po_verbose o), (rm_outcome r); reflexivity. Qed.
Lemma outcome_code_style x : outcome_code x = outcome_style x.
Proof. destruct x; reflexivity. Qed.
Lemma join_slashed p : join_path p = slashed p.
Proof. induction p as [|c p IH]; [reflexivity|]. destruct p as [|d p]; [reflexivity|]. cbn [join_path slashed] in *. now rewrite IH. Qed.
Lemma strip_components_spec base : forall p rel, strip_components base p = Some rel <-> p = base ++ rel.
Proof.
  induction base as [|b base IH]; intros p rel; cbn; [split; congruence|]. destruct p as [|c p]; [split; discriminate|].
  destruct (text_eqb b c) eqn:E.
  - apply text_eqb_eq in E. subst c. rewrite IH. split; [intros ->; reflexivity|]. intros [= ->]. reflexivity.
  - split; [discriminate|]. intros [= -> _]. rewrite text_eqb_refl in E. discriminate.
Qed.
Lemma console_path_spec v p : file_name v p (console_path v p).
Proof.
  unfold file_name, console_path. destruct (e_cwd v) as [cwd|].
  - destruct (strip_components cwd (e_root v ++ p)) as [rel|] eqn:E.
    + left. exists cwd, rel. apply strip_components_spec in E. rewrite join_slashed. auto.
    + right. split; [|now rewrite join_slashed]. intros c rel [= <-] H. apply strip_components_spec in H. congruence.
  - right. split; [discriminate|now rewrite join_slashed].
Qed.
Lemma file_name_unique v p t t' : file_name v p t -> file_name v p t' -> t = t'.
Proof.
  intros [[c [r [A [B ->]]]]|[A ->]] [[c' [r' [A' [B' ->]]]]|[A' ->]].
  - assert (c = c') by congruence. subst c'. rewrite B in B'. apply app_inv_head in B'. congruence.
  - exfalso. exact (A' c r A B).
  - exfalso. exact (A c' r' A' B').
  - reflexivity.
Qed.

Lemma remove_cr_without t : remove_cr t = without_cr t.
Proof.
  induction t as [|c t IH]; [reflexivity|]. unfold remove_cr in *. cbn [filter without_cr]. rewrite IH.
  destruct (N.eqb_spec c CR) as [->|n]; cbn [negb]; destruct (N.eq_dec _ 13) as [e|e]; try reflexivity; contradiction.
Qed.

Lemma emit_spec v x r : proper v x ->
  emit_to_console v x r = Some (if shown (x_opts x) r then [OLine (ARemoval r) (removal_line v (x_opts x) r)] else []).
Proof.
  intros P. unfold emit_to_console. rewrite shown_b. destruct (shown (x_opts x) r) eqn:S; [|reflexivity].
  rewrite (println_proper v x _ _ P).
  assert (Q : po_quiet (x_opts x) = false) by (unfold shown in S; destruct (po_quiet (x_opts x)); congruence).
  rewrite Q. do 3 f_equal. unfold removal_line, paint. rewrite console_span_eq, remove_cr_without, outcome_code_style, outcome_name_word.
  change (s2t ": `") with (s2t ": " ++ [BACKTICK]). change (s2t "` ") with (BACKTICK :: s2t " ").
  destruct (po_no_lines_or_columns (x_opts x)), (e_terminal v); rewrite <- ?app_assoc;
    cbn [app]; rewrite <- ?app_assoc, ?app_nil_r; reflexivity.
Qed.
Lemma dump_loop_other v x rs : forall other, snd (dump_loop v x rs other) =
  other || existsb (fun r => negb (is_passed (rm_outcome r))) rs.
Proof.
  induction rs as [|r rs IH]; intros other; simpl; [rewrite orb_false_r; reflexivity|].
  specialize (IH (other || negb (is_passed (rm_outcome r)))).
  destruct (dump_loop v x rs _) as [l o']. simpl in *. rewrite IH, orb_assoc. reflexivity.
Qed.
Lemma dump_loop_spec v x rs : proper v x -> forall other, fst (dump_loop v x rs other) =
  Some (map (fun r => OLine (ARemoval r) (removal_line v (x_opts x) r)) (filter (shown (x_opts x)) rs)).
Proof.
  intros P. induction rs as [|r rs IH]; intros other; [reflexivity|]. simpl.
  specialize (IH (other || negb (is_passed (rm_outcome r)))).
  destruct (dump_loop v x rs _) as [l o']. simpl in *. rewrite IH, (emit_spec v x r P).
  destruct (shown (x_opts x) r); reflexivity.
Qed.
Lemma dump_spec v x rs : proper v x -> dump v x rs =
  Some (map (fun r => OLine (ARemoval r) (removal_line v (x_opts x) r)) (filter (shown (x_opts x)) rs) ++
        (if negb (po_quiet (x_opts x)) && existsb (fun r => negb (shown (x_opts x) r)) rs
         then [OLine ANote ((if e_terminal v then 27%N :: s2t "[1;32mNote" ++ 27%N :: s2t "[0m" else s2t "Note")
                              ++ s2t ": more output would be produced with --verbose")]
         else [])).
Proof.
  intros P. unfold dump. pose proof (dump_loop_spec v x rs P false) as H. pose proof (dump_loop_other v x rs false) as H'.
  destruct (dump_loop v x rs false) as [l o]. simpl in H, H'. subst l o.
  cbn [orb]. 
  assert (Hb : po_quiet (x_opts x) = false -> existsb (fun r => negb (shown (x_opts x) r)) rs =
    negb (po_verbose (x_opts x)) && existsb (fun r => negb (is_passed (rm_outcome r))) rs).
  { intros Q. unfold shown. rewrite Q. destruct (po_verbose (x_opts x)); simpl.
    - induction rs as [|r rs IH]; [reflexivity|]. simpl. exact IH.
    - induction rs as [|r rs IH]; [reflexivity|]. simpl. rewrite IH. destruct (rm_outcome r); reflexivity. }
  unfold note. destruct (po_quiet (x_opts x)) eqn:Q.
  { cbn [negb andb]. destruct (negb (po_verbose (x_opts x)) && _); reflexivity. }
  rewrite (println_proper v x _ _ P), Q. cbn [negb andb]. rewrite (Hb eq_refl).
  destruct (negb (po_verbose (x_opts x)) && _); [|reflexivity]. unfold paint. destruct (e_terminal v); reflexivity.
Qed.

(** ** Removal lines of a whole process *)
Lemma removal_lines_app a b : removal_lines (a ++ b) = removal_lines a ++ removal_lines b.
Proof. apply flat_map_app. Qed.
Lemma removal_lines_map v o rs : removal_lines (map (fun r => OLine (ARemoval r) (removal_line v o r)) rs) = map (removal_line v o) rs.
Proof. induction rs as [|r rs IH]; [reflexivity|]. simpl. f_equal. exact IH. Qed.

Lemma op_removal_lines v x m op m' l r : proper v x -> do_op v x m op = (m', l, r) ->
  removal_lines (match l with Some l => l | None => [] end) = map (removal_line v (x_opts x)) (filter (shown (x_opts x)) (asked op)).
Proof.
  intros P E. destruct op; cbn [do_op asked] in E |- *; try (unfold of_out in E; injection E as <- <- <-).
  - destruct (warning_eq_dec w WAll) as [->|Hw]; [simpl in E; injection E as <- <- <-; reflexivity|].
    rewrite (warn_all_other _ _ _ _ _ _ _ Hw) in E. cbv zeta in E. rewrite (println_proper v x _ _ P) in E.
    destruct (_ || _) in E; [injection E as <- <- <-; reflexivity|].
    destruct (_ || _) in E; [injection E as <- <- <-; reflexivity|].
    injection E as _ <- _. destruct (po_quiet (x_opts x)); reflexivity.
  - unfold note. destruct (po_quiet (x_opts x)) eqn:Q; [reflexivity|]. rewrite (println_proper v x _ _ P), Q. reflexivity.
  - rewrite (emit_spec v x r0 P). simpl. destruct (shown (x_opts x) r0); reflexivity.
  - rewrite (dump_spec v x rs P), removal_lines_app, removal_lines_map.
    destruct (_ && _); simpl; rewrite app_nil_r; reflexivity.
  - unfold dump_candidates in E.
    assert (H : forall ss l r, dump_spans v x contents ss = (l, r) ->
              removal_lines (match l with Some l => l | None => [] end) = []).
    { clear E. induction ss as [|s ss IH]; intros l0 r0 E; simpl in E; [injection E as <- <-; reflexivity|].
      destruct (source_text _ _); try (injection E as <- <-; reflexivity).
      rewrite (println_proper v x _ _ P) in E. destruct (dump_spans v x contents ss) as [l1 r1].
      specialize (IH l1 r1 eq_refl). injection E as <- <-. destruct l1 as [l1|]; [|reflexivity]. simpl.
      rewrite removal_lines_app, IH. destruct (po_quiet (x_opts x)); reflexivity. }
    destruct (dump_spans v x contents _) eqn:E0. injection E as _ <- <-. simpl. exact (H _ _ _ E0).
  - unfold dump_candidate_counts. simpl.
    generalize (list_max (map (fun c => length (print_usize (fst c))) (count_sort (map file_count files)))). intros wd.
    induction (count_sort (map file_count files)) as [|c cs IH]; [reflexivity|]. simpl in *.
    rewrite (println_proper v x _ _ P). destruct (fold_right _ _ cs) as [l|]; [|reflexivity]. simpl.
    rewrite removal_lines_app, IH. destruct (po_quiet (x_opts x)); reflexivity.
  - rewrite (println_proper v x _ _ P). destruct (po_quiet (x_opts x)); reflexivity.
  - unfold bar. destruct (x_progress x); reflexivity.
Qed.

Lemma process_removal_lines v o ops : forall m, (forall x op, In (x, op) ops -> proper v x /\ x_opts x = o) ->
  removal_lines (stdout (snd (do_ops v m ops))) =
  map (removal_line v o) (filter (shown o) (flat_map (fun e => asked (snd e)) ops)).
Proof.
  induction ops as [|[x op] ops IH]; intros m H; [reflexivity|]. simpl.
  destruct (do_op v x m op) as [[m' l] r] eqn:E. specialize (IH m').
  destruct (do_ops v m' ops) as [m'' ls]. simpl in *.
  destruct (H x op (or_introl eq_refl)) as [P Q]. 
  rewrite removal_lines_app, filter_app, map_app, IH; [|intros y op' I; apply (H y op'); right; exact I].
  f_equal. rewrite (op_removal_lines v x m op m' l r P E), Q. reflexivity.
Qed.

(** ** Counts *)
Lemma count_insert_perm x l : Permutation (count_insert x l) (x :: l).
Proof.
  induction l as [|y l IH]; simpl; [reflexivity|]. destruct (count_compare x y); try reflexivity.
  rewrite IH. apply perm_swap.
Qed.
Lemma count_sort_perm l : Permutation (count_sort l) l.
Proof. induction l as [|x l IH]; simpl; [reflexivity|]. rewrite count_insert_perm, IH. reflexivity. Qed.
Lemma count_compare_le a b : count_compare a b <> Gt -> count_le a b.
Proof.
  unfold count_compare, count_le. destruct (Nat.compare_spec (fst a) (fst b)) as [H|H|H]; intros G; [right; auto|left; exact H|congruence].
Qed.
Lemma count_compare_ge a b : count_compare a b = Gt -> count_le b a.
Proof.
  unfold count_compare, count_le. destruct (Nat.compare_spec (fst a) (fst b)) as [H|H|H]; intros G.
  - right. split; [auto|]. rewrite path_compare_antisym, G. simpl. discriminate.
  - discriminate.
  - left. exact H.
Qed.
Lemma counts_insert_ascend x l : counts_ascend l -> counts_ascend (count_insert x l).
Proof.
  induction l as [|y l IH]; intros H; [exact I|]. simpl.
  destruct (count_compare x y) eqn:E.
  1,2: (split; [apply count_compare_le; congruence|exact H]).
  pose proof (count_compare_ge _ _ E) as G.
  assert (H' : counts_ascend l) by (destruct l; [exact I|apply H]). specialize (IH H').
  destruct l as [|z l]; simpl; [split; [exact G|exact I]|]. simpl in IH.
  destruct (count_compare x z); (split; [|exact IH]); try exact G. apply H.
Qed.
Lemma count_sort_ascend l : counts_ascend (count_sort l).
Proof. induction l as [|x l IH]; [exact I|]. simpl. apply counts_insert_ascend, IH. Qed.

Lemma counts_lines v x files : proper v x -> po_quiet (x_opts x) = false ->
  let counts := count_sort (map file_count files) in
  dump_candidate_counts v x files = Some (map (fun c => OLine (ACount (snd c))
    (right_align (list_max (map (fun c => length (print_usize (fst c))) counts)) (print_usize (fst c))
       ++ 32%N :: console_path v (snd c))) counts).
Proof.
  intros P Q counts. unfold dump_candidate_counts. fold counts.
  generalize (list_max (map (fun c => length (print_usize (fst c))) counts)). intros wd.
  induction counts as [|c cs IH]; [reflexivity|]. simpl. rewrite IH, (println_proper v x _ _ P), Q. reflexivity.
Qed.

Lemma list_sum_perm l l' : Permutation l l' -> list_sum l = list_sum l'.
Proof. induction 1; simpl; lia. Qed.

Lemma candidates_lines v x contents ss l : proper v x -> po_quiet (x_opts x) = false ->
  dump_spans v x contents ss = (Some l, Ok tt) ->
  Forall2 (fun s o => exists t, source_text (contents (sp_path s)) s = Ok t /\
     o = OLine (ACandidate s) (console_path v (sp_path s) ++
        (if po_no_lines_or_columns (x_opts x) then []
         else s2t ":" ++ print_usize (line (sp_start s)) ++ s2t ":" ++ print_usize (column (sp_start s) + 1)
           ++ s2t "-" ++ print_usize (line (sp_end s)) ++ s2t ":" ++ print_usize (column (sp_end s) + 1))
        ++ s2t ": `" ++ without_cr t ++ s2t "`")) ss l.
Proof.
  intros P Q. revert l. induction ss as [|s ss IH]; intros l E; simpl in E; [injection E as <-; constructor|].
  destruct (source_text _ _) as [t| |] eqn:T; try discriminate.
  rewrite (println_proper v x _ _ P), Q in E. destruct (dump_spans v x contents ss) as [[l1|] r1]; [|discriminate].
  injection E as <- ->. apply Forall2_cons; [|exact (IH l1 eq_refl)].
  exists t. split; [exact T|]. f_equal. rewrite console_span_eq, remove_cr_without. change (s2t ": `") with (s2t ": " ++ [BACKTICK]).
  destruct (po_no_lines_or_columns (x_opts x)); rewrite <- ?app_assoc; reflexivity.
Qed.

Lemma stm_spans_length m : length (stm_spans m) = length (stm_statement m) + length (stm_method m).
Proof. unfold stm_spans. rewrite app_length, !map_length. reflexivity. Qed.

Lemma total_spans files : length (flat_map (fun f => stm_spans (snd f)) files) = list_sum (map fst (map file_count files)).
Proof.
  induction files as [|f files IH]; [reflexivity|]. simpl. rewrite app_length, IH, stm_spans_length. reflexivity.
Qed.

Lemma stm_iter_spans m : map c_span (stm_iter m) = stm_spans m.
Proof. unfold stm_iter, stm_spans. rewrite map_app, !map_map. reflexivity. Qed.

Lemma n_spans_cands files : n_spans files = list_sum (map (fun c => length (c_tests c)) (all_cands files)).
Proof.
  unfold n_spans, all_cands. induction files as [|f files IH]; [reflexivity|]. simpl. rewrite map_app.
  assert (A : forall a b, list_sum (a ++ b) = list_sum a + list_sum b) by (intros; apply list_sum_app).
  rewrite A, <- IH. f_equal. unfold stm_iter. rewrite map_app, A, !map_map. reflexivity.
Qed.

Lemma sum_ge {A} (f : A -> nat) l : (forall x, In x l -> 1 <= f x) -> length l <= list_sum (map f l).
Proof.
  induction l as [|x l IH]; intros H; [simpl; lia|]. simpl.
  pose proof (H x (or_introl eq_refl)). assert (length l <= list_sum (map f l)) by (apply IH; intros; apply H; right; assumption).
  unfold list_sum in *. simpl in *. lia.
Qed.
Lemma sum_eq {A} (f : A -> nat) l : (forall x, In x l -> 1 <= f x) ->
  (list_sum (map f l) = length l <-> forall x, In x l -> f x = 1).
Proof.
  induction l as [|x l IH]; intros H; [simpl; split; [intros _ x []|reflexivity]|].
  assert (Hl : forall y, In y l -> 1 <= f y) by (intros; apply H; right; assumption).
  pose proof (H x (or_introl eq_refl)). pose proof (sum_ge f l Hl). specialize (IH Hl). simpl.
  change (fold_right Nat.add 0 (map f l)) with (list_sum (map f l)) in *.
  split.
  - intros E y [<-|I]; [lia|]. apply IH; [lia|exact I].
  - intros E. rewrite (E x (or_introl eq_refl)). rewrite (proj2 IH); [reflexivity|]. intros y I. apply E. right. exact I.
Qed.
Lemma Forall2_len {A B} (R : A -> B -> Prop) l l' : Forall2 R l l' -> length l = length l'.
Proof. induction 1; simpl; congruence. Qed.
