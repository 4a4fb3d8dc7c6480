From Verif Require Import Base M_Text M_Rewriter M_Span L_Span M_Run S_Run M_Visitor S_Visitor S_Walk L_Visitor.
From Coq Require Import Lia.

(** ** The maps stay sorted, without duplicates, and no candidate is without tests *)
Fixpoint tsorted (l : list text) : Prop :=
  match l with
  | a :: (b :: _) as r => text_compare a b = Lt /\ tsorted r
  | _ => True
  end.

Lemma set_add_sorted t l : tsorted l -> tsorted (set_add t l) /\
  (forall a, text_compare a t = Lt -> match l with [] => True | b :: _ => text_compare a b = Lt end ->
     match set_add t l with [] => True | b :: _ => text_compare a b = Lt end).
Proof.
  induction l as [|x r IH]; intros Hs; cbn [set_add].
  - split; [exact I|auto].
  - destruct (text_compare t x) eqn:C.
    + split; [exact Hs|auto].
    + split; [split; [exact C|exact Hs]|auto].
    + assert (Hr : tsorted r) by (destruct r; [exact I|apply Hs]).
      destruct (IH Hr) as [IH1 IH2]. split; [|intros a _ H; exact H].
      cbn [tsorted]. destruct (set_add t r) as [|y r'] eqn:Hy; [exact I|]. split; [|exact IH1].
      apply (IH2 x); [rewrite text_compare_antisym, C; reflexivity|].
      destruct r; [exact I|apply Hs].
Qed.
Lemma set_adds_sorted ts : forall l, tsorted l -> tsorted (set_adds ts l).
Proof.
  unfold set_adds. induction ts as [|t r IH]; intros l H; cbn [fold_left]; [exact H|]. apply IH. apply set_add_sorted. exact H.
Qed.
Lemma set_adds_ne ts l : ts <> [] -> set_adds ts l <> [].
Proof.
  destruct ts as [|t r]; [congruence|]. intros _ H. assert (Hin : In t (set_adds (t :: r) l)) by (apply set_adds_in; left; left; reflexivity).
  rewrite H in Hin. destruct Hin.
Qed.

Lemma iset_adds_ne ts l : ts <> [] -> iset_adds ts l <> [].
Proof.
  destruct ts as [|t r]; [congruence|]. intros _ H. assert (Hin : In t (iset_adds (t :: r) l)) by (apply iset_adds_in; left; left; reflexivity).
  rewrite H in Hin. destruct Hin.
Qed.

Definition entries_ok (m : list (span * list text)) : Prop :=
  ascending (map fst m) /\ forall s ts, In (s, ts) m -> ts <> [] /\ NoDup ts.

Lemma map_add_ok s ts m : ts <> [] -> entries_ok m -> entries_ok (map_add s ts m) /\
  (forall a, span_lt a s -> match map fst m with [] => True | b :: _ => span_lt a b end ->
     match map fst (map_add s ts m) with [] => True | b :: _ => span_lt a b end).
Proof.
  intros Hne. induction m as [|[s' ts'] r IH]; intros [Ha He]; cbn [map_add].
  - split; [|intros a H _; exact H]. split; [exact I|]. intros x us [H|[]]. inversion H; subst.
    split; [apply iset_adds_ne; exact Hne|apply iset_adds_nodup; constructor].
  - assert (Hr : entries_ok r).
    { split; [cbn [map] in Ha; destruct (map fst r) eqn:Hm; [exact I|apply Ha]|]. intros x us H. apply (He x us). right. exact H. }
    destruct (IH Hr) as [[IH1 IH2] IH3].
    destruct (span_compare s s') eqn:C.
    + split; [|intros a _ H; exact H]. split; [exact Ha|]. intros x us [H|H]; [|apply (He x us); right; exact H].
      inversion H; subst. split; [apply iset_adds_ne; exact Hne|]. apply iset_adds_nodup. apply (He x ts'). left. reflexivity.
    + split; [|intros a H _; exact H]. split; [split; [exact C|exact Ha]|]. intros x us [H|H]; [|apply (He x us); exact H].
      inversion H; subst. split; [apply iset_adds_ne; exact Hne|apply iset_adds_nodup; constructor].
    + split; [|intros a _ H; exact H]. split.
      * cbn [map ascending]. destruct (map fst (map_add s ts r)) as [|y l] eqn:Hy; [exact I|]. cbn [fst]. split; [|exact IH1].
        apply (IH3 s'); [unfold span_lt; rewrite span_compare_antisym, C; reflexivity|].
        cbn [map] in Ha. destruct (map fst r); [exact I|apply Ha].
      * intros x us [H|H]; [apply (He x us); left; exact H|apply IH2 in H; exact H].
Qed.

Record vok (st : vst) : Prop := Vok {
  vo_tests : tsorted (s_tests st);
  vo_stmt : entries_ok (stm_statement (s_maps st));
  vo_meth : entries_ok (stm_method (s_maps st));
  vo_pend : forall f ts, In (f, ts) (s_pend st) -> tsorted ts
}.

Lemma pend_add_sorted E f ts l : (forall g us, In (g, us) l -> tsorted us) ->
  forall g us, In (g, us) (pend_add E f ts l) -> tsorted us.
Proof.
  induction l as [|[h vs] r IH]; intros H g us; cbn [pend_add].
  - intros [Hx|[]]. inversion Hx; subst. apply set_adds_sorted. exact I.
  - destruct (same E f h); intros [Hx|Hx].
    + inversion Hx; subst. apply set_adds_sorted. apply (H g vs). left. reflexivity.
    + apply (H g us). right. exact Hx.
    + inversion Hx; subst. apply (H g us). left. reflexivity.
    + eapply IH; [|exact Hx]. intros g' us' Hin. apply (H g' us'). right. exact Hin.
Qed.

Lemma vok_register E sp k st st' : vok st -> register_span E sp k st = Some st' -> vok st'.
Proof.
  intros [V1 V2 V3 V4]. unfold register_span. destruct (is_nil (s_tests st)) eqn:Hn; [discriminate|]. cbn [negb guard obind].
  assert (Hne : s_tests st <> []) by (intros H; rewrite H in Hn; discriminate).
  destruct (v_skip E sp); intros H; inversion H; subst st'; [constructor; assumption|].
  constructor; cbn [set_maps s_tests s_maps s_pend]; try assumption; destruct k; cbn [stm_statement stm_method]; try assumption;
    apply map_add_ok; assumption.
Qed.

Lemma vok_call x st : vok st -> vok (set_call x st). Proof. intros []; constructor; assumption. Qed.
Lemma vok_vmm E sp ic im imet st st' w : vok st -> visit_maybe_macro_call E sp ic im imet st = Some (st', w) -> vok st'.
Proof.
  intros V. unfold visit_maybe_macro_call. apply (vok_call None) in V.
  match goal with |- context [if ?b then _ else _] => destruct b end.
  2:{ intros H; inversion H; subst. exact V. }
  destruct (match s_call st with Some s => if negb ic then register_span E (n_span s) Statement (set_call None st) else Some (set_call None st)
            | None => Some (set_call None st) end) as [st1|] eqn:H1; [|discriminate]. cbn [obind].
  assert (V1 : vok st1).
  { destruct (s_call st); [destruct (negb ic)|]; try (inversion H1; subst; exact V). eapply vok_register; [exact V|exact H1]. }
  destruct (if negb ic && im && negb imet then register_span E sp MethodCall st1 else Some st1) as [st2|] eqn:H2; [|discriminate]. cbn [obind].
  intros H; inversion H; subst. destruct (negb ic && im && negb imet); [eapply vok_register; [exact V1|exact H2]|inversion H2; subst; exact V1].
Qed.
Lemma vok_visit_call E c st st' w : vok st -> visit_call E c st = Some (st', w) -> vok st'.
Proof.
  intros V. unfold visit_call. destruct (walk_target E (s_ret st) c) as [[[nm amb] f]|].
  - intros H; inversion H; subst; clear H. destruct V. destruct amb; constructor; cbn; try assumption; apply pend_add_sorted; assumption.
  - destruct (callee_is_named_field c) as [[x b0]|]; [|apply vok_vmm; exact V].
    destruct (call_info_inner E true false (n_span c) [x] b0) as [inner|]; [|discriminate]. cbn [obind].
    destruct (call_info_inner E false false (n_span c) [x] b0) as [ci|]; [|discriminate]. cbn [obind].
    destruct (ci_method ci); [|discriminate]. cbn [guard obind]. apply vok_vmm. exact V.
Qed.

Lemma vok_fold E ks : Forall (fun k => forall st st', vok st -> walk E k st = Some st' -> vok st') ks ->
  forall st st', vok st -> fold_kids (walk E) ks st = Some st' -> vok st'.
Proof.
  induction 1 as [|k r Hk _ IH]; intros st st' V; cbn [fold_kids]; [intros H; inversion H; subst; exact V|].
  destruct (walk E k st) as [st1|] eqn:H1; [|discriminate]. cbn [obind]. apply IH. eapply Hk; eauto.
Qed.

Lemma vok_walk E n : forall st st', vok st -> walk E n st = Some st' -> vok st'.
Proof.
  induction n as [l ks IH] using node_ind'. intros st st' V. cbn [walk].
  destruct (l_kind l) as [r0 c0 d0 e0| |o|h nm|nm|nm|nm bi| |].
  - destruct (visit_statement (Node l ks) st) as [st1|] eqn:H1; [|discriminate]. cbn [obind].
    assert (V1 : vok st1).
    { unfold visit_statement in H1. destruct (statement_is_call (Node l ks)).
      - cbn [set_before s_call] in H1. destruct (is_none (s_call st)); [|discriminate]. inversion H1; subst. destruct V; constructor; assumption.
      - inversion H1; subst. destruct V; constructor; assumption. }
    destruct (fold_kids (walk E) ks st1) as [st2|] eqn:H2; [|discriminate]. cbn [obind].
    apply (vok_fold E ks IH _ _ V1) in H2. unfold visit_statement_post.
    destruct (is_none (s_call st2)); [|discriminate]. cbn [guard obind].
    destruct (s_before st2) as [|nb rest]; [discriminate|].
    assert (V3 : vok (set_before rest st2)) by (destruct H2; constructor; assumption).
    match goal with |- context [if ?b then _ else _] => destruct b end; [intros H; inversion H; subst; exact V3|].
    match goal with |- context [if ?b then _ else _] => destruct b end.
    + apply vok_register. destruct H2; constructor; assumption.
    + intros H; inversion H; subst. destruct H2; constructor; assumption.
  - destruct (fw_expr_kids (v_fw E)); [apply (vok_fold E ks IH); assumption|intros H; inversion H; subst; exact V].
  - destruct (fw_expr_kids (v_fw E)); [apply (vok_fold E ks IH); assumption|intros H; inversion H; subst; exact V].
  - destruct h; [apply (vok_fold E ks IH); assumption|].
    destruct (visit_call E (Node l ks) st) as [[st1 w]|] eqn:H1; [|discriminate]. cbn [obind].
    apply vok_visit_call in H1; [|exact V]. destruct w; [apply (vok_fold E ks IH); assumption|].
    destruct (fw_skip_whole (v_fw E)); [intros H; inversion H; subst; exact H1|].
    destruct ks as [|callee args]; [intros H; inversion H; subst; exact H1|]. inversion IH as [|? ? IHc _]; subst. apply IHc. exact H1.
  - destruct (visit_macro_call E nm (l_span l) st) as [[st1 w]|] eqn:H1; [|discriminate]. cbn [obind].
    apply vok_vmm in H1; [|exact V]. destruct w; [apply (vok_fold E ks IH); assumption|intros H; inversion H; subst; exact H1].
  - destruct (fw_expr_kids (v_fw E)); [apply (vok_fold E ks IH); assumption|intros H; inversion H; subst; exact V].
  - destruct (visit_test E nm (test_statements bi ks) st) as [[st1 w]|] eqn:H1; [|discriminate]. cbn [obind].
    assert (V1 : vok st1).
    { unfold visit_test in H1. destruct (v_ign_test E nm); [inversion H1; subst; exact V|].
      cbn [set_tset s_tests set_tests s_last] in H1. destruct (is_nil (s_tests st)); [|discriminate]. cbn [guard obind] in H1.
      destruct (is_none (s_last st)); [|discriminate]. cbn [guard obind] in H1. inversion H1; subst. destruct V; constructor; try assumption. exact I. }
    destruct (if w then fold_kids (walk E) ks st1 else Some st1) as [st2|] eqn:H2; [|discriminate]. cbn [obind].
    assert (V2 : vok st2) by (destruct w; [eapply vok_fold; eauto|inversion H2; subst; exact V1]).
    unfold visit_test_post. cbn [set_last s_tests]. destruct (s_tests st2) as [|t [|t' r]]; [| |discriminate].
    + destruct (v_ign_test E nm); [|discriminate]. cbn [guard obind]. intros H; inversion H; subst. destruct V2; constructor; assumption.
    + destruct (text_eqb t nm); [|discriminate]. cbn [guard obind]. intros H; inversion H; subst. destruct V2; constructor; try assumption. exact I.
  - destruct (fw_expr_kids (v_fw E)); [apply (vok_fold E ks IH); assumption|intros H; inversion H; subst; exact V].
  - apply (vok_fold E ks IH); assumption.
Qed.

Lemma vok_loop E fuel : forall st st', vok st -> local_loop E fuel st = LDone st' -> vok st'.
Proof.
  induction fuel as [|fuel IH]; intros st st' V; cbn [local_loop]; destruct (next_local_function st) as [[f st1]|] eqn:Hn; try discriminate;
    try (intros H; inversion H; subst; exact V).
  destruct (fold_kids (walk E) (n_kids f) st1) as [st2|] eqn:Hw; [|discriminate]. apply IH.
  eapply vok_fold; [apply Forall_forall; intros k _ a b; apply vok_walk| |exact Hw].
  unfold next_local_function in Hn. destruct (rev (s_pend st)) as [|[g ts] r] eqn:Hr; [discriminate|]. inversion Hn; subst.
  assert (Hp : s_pend st = rev r ++ [(f, ts)]) by (rewrite <- (rev_involutive (s_pend st)), Hr; reflexivity).
  destruct V. constructor; cbn; try assumption.
  - eapply vo_pend0. rewrite Hp. apply in_or_app. right. left. reflexivity.
  - intros g us Hin. apply (vo_pend0 g us). rewrite Hp. apply in_or_app. left. exact Hin.
Qed.

Theorem visit_maps_ok E fuel root st : visit_file E fuel root = LDone st ->
  entries_ok (stm_statement (s_maps st)) /\ entries_ok (stm_method (s_maps st)).
Proof.
  unfold visit_file. destruct (walk E root init_vst) as [st0|] eqn:Hw; [|discriminate]. intros H.
  apply vok_loop in H; [destruct H; auto|]. eapply vok_walk; [|exact Hw].
  constructor; cbn; try exact I; try (intros f ts []); split; try exact I; intros s ts [].
Qed.

Lemma tsorted_nodup l : tsorted l -> NoDup l.
Proof.
  intros H.
  assert (G : forall a r, tsorted (a :: r) -> forall x, In x r -> text_compare a x = Lt).
  { intros a r. revert a. induction r as [|b r IH]; intros a Hs x; [intros []|]. destruct Hs as [H1 H2].
    intros [->|Hx]; [exact H1|]. eapply text_compare_trans; [exact H1|]. apply IH; [exact H2|exact Hx]. }
  induction l as [|a r IH]; [constructor|]. constructor.
  - intros Hin. pose proof (G a r H a Hin) as Hc. rewrite (proj2 (text_compare_eq a a) eq_refl) in Hc. discriminate.
  - apply IH. destruct r; [exact I|apply H].
Qed.
