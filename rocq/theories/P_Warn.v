(** Property theorem C35_ambiguous: the names of which necessist warns that several local functions have them. *)
From Verif Require Import Base M_Text M_Rewriter M_Span L_Span M_Run M_Visitor S_Visitor S_Walk S_Candidates L_Visitor L_VisitorLoop L_VisitorMaps L_VisitorFacts L_Candidates
  P_Visitor.
Local Open Scope list_scope.

Lemma set_add_in x y l : In x (set_add y l) <-> x = y \/ In x l.
Proof.
  induction l as [|z r IH]; cbn [set_add]; [cbn; intuition|]. destruct (text_compare y z) eqn:C.
  - apply text_compare_eq in C. subst. cbn. intuition.
  - cbn. intuition.
  - cbn [In]. rewrite IH. intuition.
Qed.

Section Warn.
Context (E : venv).
(** The local functions that are walked or that are going to be. *)
Definition functions (st : vst) : list node := keys (s_pend st) ++ s_ret st.
Record wok (st : vst) : Prop := Wok {
  wo_amb : forall x, In x (s_warn st) -> exists f g r h, v_walkable E x = f :: g :: r /\ In h (functions st) /\ same E f h = true;
  wo_all : forall h, In h (functions st) -> exists x r, v_walkable E x = h :: r /\ (r <> [] -> In x (s_warn st))
}.
Lemma wok_ext st st' : s_warn st' = s_warn st -> s_pend st' = s_pend st -> s_ret st' = s_ret st -> wok st -> wok st'.
Proof. intros H1 H2 H3 []. constructor; unfold functions in *; rewrite ?H1, ?H2, ?H3; assumption. Qed.
Lemma wok_register sp k st st' : wok st -> register_span E sp k st = Some st' -> wok st'.
Proof.
  intros V. unfold register_span. destruct (is_nil (s_tests st)); [discriminate|]. cbn [negb guard obind].
  destruct (v_skip E sp); intros H; inversion H; subst st'; [exact V|]. eapply wok_ext; [| | |exact V]; reflexivity.
Qed.
Lemma wok_vmm sp ic im imet st st' w : wok st -> visit_maybe_macro_call E sp ic im imet st = Some (st', w) -> wok st'.
Proof.
  intros V. unfold visit_maybe_macro_call. apply (wok_ext st (set_call None st) eq_refl eq_refl eq_refl) in V.
  match goal with |- context [if ?b then _ else _] => destruct b end.
  2:{ intros H; inversion H; subst. exact V. }
  destruct (match s_call st with Some s => if negb ic then register_span E (n_span s) Statement (set_call None st) else Some (set_call None st)
            | None => Some (set_call None st) end) as [st1|] eqn:H1; [|discriminate]. cbn [obind].
  assert (V1 : wok st1).
  { destruct (s_call st); [destruct (negb ic)|]; try (inversion H1; subst; exact V). eapply wok_register; [exact V|exact H1]. }
  destruct (if negb ic && im && negb imet then register_span E sp MethodCall st1 else Some st1) as [st2|] eqn:H2; [|discriminate]. cbn [obind].
  intros H; inversion H; subst. destruct (negb ic && im && negb imet); [eapply wok_register; [exact V1|exact H2]|inversion H2; subst; exact V1].
Qed.
Lemma wok_visit_call c st st' w : wok st -> visit_call E c st = Some (st', w) -> wok st'.
Proof.
  intros V. unfold visit_call. destruct (walk_target E (s_ret st) c) as [[[nm amb] f]|] eqn:T.
  - assert (X : exists r, v_walkable E nm = f :: r /\ amb = negb (is_nil r)).
    { unfold walk_target in T. destruct (n_kids c) as [|callee args]; [discriminate|]. destruct (expr_name E callee) as [y|]; [|discriminate].
      destruct (v_walkable E y) as [|g r] eqn:Y; [discriminate|]. destruct (existsb (same E g) (s_ret st)); [discriminate|]. inversion T; subst. eauto. }
    destruct X as (r & Hr & ->).
    intros H; inversion H; subst; clear H.
    assert (Hw : s_warn (set_call None (set_pend (pend_add E f (s_tests (if negb (is_nil r) then set_warn (set_add nm (s_warn st)) st else st))
        (s_pend (if negb (is_nil r) then set_warn (set_add nm (s_warn st)) st else st))) (if negb (is_nil r) then set_warn (set_add nm (s_warn st)) st else st))) =
        if negb (is_nil r) then set_add nm (s_warn st) else s_warn st) by (destruct r; reflexivity).
    match goal with |- wok ?s => assert (Hp : s_pend s = pend_add E f (s_tests st) (s_pend st) /\ s_ret s = s_ret st) by (destruct r; split; reflexivity) end.
    destruct Hp as [Hp Hret]. destruct V as [V1 V2]. constructor; unfold functions in *; rewrite Hw, Hp, Hret.
    + intros x Hx. assert (Hx' : In x (s_warn st) \/ (x = nm /\ r <> [])).
      { destruct r as [|g r]; [left; exact Hx|]. cbn [is_nil negb] in Hx. apply set_add_in in Hx. destruct Hx as [->|Hx]; [right; split; [reflexivity|discriminate]|left; exact Hx]. }
      destruct Hx' as [Hx'|(-> & Hne)].
      * destruct (V1 x Hx') as (a & b & l & h & Ha & Hin & Hs). exists a, b, l, h. split; [exact Ha|]. split; [|exact Hs]. apply in_app_or in Hin. apply in_or_app.
        destruct Hin as [Hin|Hin]; [left; apply pend_keys_mono; exact Hin|right; exact Hin].
      * destruct r as [|g r]; [destruct (Hne eq_refl)|]. destruct (pend_keys_all E f (s_tests st) (s_pend st)) as (h & Hh & Hs). exists f, g, r, h. split; [exact Hr|]. split; [|exact Hs].
        apply in_or_app. left. exact Hh.
    + intros h Hh. assert (Hh' : In h (keys (s_pend st) ++ s_ret st) \/ h = f).
      { apply in_app_or in Hh. destruct Hh as [Hh|Hh]; [|left; apply in_or_app; auto]. apply pend_keys_new in Hh. destruct Hh; [left; apply in_or_app; auto|auto]. }
      destruct Hh' as [Hh'| ->].
      * destruct (V2 h Hh') as (x & l & Hx & Hl). exists x, l. split; [exact Hx|]. intros Hne. specialize (Hl Hne). destruct r; [exact Hl|]. cbn [is_nil negb]. apply set_add_in. auto.
      * exists nm, r. split; [exact Hr|]. intros Hne. destruct r; [destruct (Hne eq_refl)|]. cbn [is_nil negb]. apply set_add_in. auto.
  - destruct (callee_is_named_field c) as [[x b0]|]; [|apply wok_vmm; exact V].
    destruct (call_info_inner E true false (n_span c) [x] b0) as [inner|]; [|discriminate]. cbn [obind].
    destruct (call_info_inner E false false (n_span c) [x] b0) as [ci|]; [|discriminate]. cbn [obind].
    destruct (ci_method ci); [|discriminate]. cbn [guard obind]. apply wok_vmm. exact V.
Qed.
Lemma wok_fold ks : Forall (fun k => forall st st', wok st -> walk E k st = Some st' -> wok st') ks ->
  forall st st', wok st -> fold_kids (walk E) ks st = Some st' -> wok st'.
Proof.
  induction 1 as [|k r Hk _ IH]; intros st st' V; cbn [fold_kids]; [intros H; inversion H; subst; exact V|].
  destruct (walk E k st) as [st1|] eqn:H1; [|discriminate]. cbn [obind]. apply IH. eapply Hk; eauto.
Qed.
Ltac ext V := eapply wok_ext; [| | |exact V]; reflexivity.
Lemma wok_walk n : forall st st', wok st -> walk E n st = Some st' -> wok st'.
Proof.
  induction n as [l ks IH] using node_ind'. intros st st' V. cbn [walk].
  destruct (l_kind l) as [r0 c0 d0 e0| |o|h nm|nm|nm|nm bi| |].
  - destruct (visit_statement (Node l ks) st) as [st1|] eqn:H1; [|discriminate]. cbn [obind].
    assert (V1 : wok st1).
    { unfold visit_statement in H1. destruct (statement_is_call (Node l ks)).
      - cbn [set_before s_call] in H1. destruct (is_none (s_call st)); [|discriminate]. inversion H1; subst. ext V.
      - inversion H1; subst. ext V. }
    destruct (fold_kids (walk E) ks st1) as [st2|] eqn:H2; [|discriminate]. cbn [obind].
    apply (wok_fold ks IH _ _ V1) in H2. unfold visit_statement_post.
    destruct (is_none (s_call st2)); [|discriminate]. cbn [guard obind].
    destruct (s_before st2) as [|nb rest]; [discriminate|].
    assert (V3 : wok (set_before rest st2)) by (ext H2).
    match goal with |- context [if ?b then _ else _] => destruct b end; [intros H; inversion H; subst; exact V3|].
    match goal with |- context [if ?b then _ else _] => destruct b end.
    + apply wok_register. ext H2.
    + intros H; inversion H; subst. ext H2.
  - destruct (fw_expr_kids (v_fw E)); [apply (wok_fold ks IH); assumption|intros H; inversion H; subst; exact V].
  - destruct (fw_expr_kids (v_fw E)); [apply (wok_fold ks IH); assumption|intros H; inversion H; subst; exact V].
  - destruct h; [apply (wok_fold ks IH); assumption|].
    destruct (visit_call E (Node l ks) st) as [[st1 w]|] eqn:H1; [|discriminate]. cbn [obind].
    apply wok_visit_call in H1; [|exact V]. destruct w; [apply (wok_fold ks IH); assumption|].
    destruct (fw_skip_whole (v_fw E)); [intros H; inversion H; subst; exact H1|].
    destruct ks as [|callee args]; [intros H; inversion H; subst; exact H1|]. inversion IH as [|? ? IHc _]; subst. apply IHc. exact H1.
  - destruct (visit_macro_call E nm (l_span l) st) as [[st1 w]|] eqn:H1; [|discriminate]. cbn [obind].
    apply wok_vmm in H1; [|exact V]. destruct w; [apply (wok_fold ks IH); assumption|intros H; inversion H; subst; exact H1].
  - destruct (fw_expr_kids (v_fw E)); [apply (wok_fold ks IH); assumption|intros H; inversion H; subst; exact V].
  - destruct (visit_test E nm (test_statements bi ks) st) as [[st1 w]|] eqn:H1; [|discriminate]. cbn [obind].
    assert (V1 : wok st1).
    { unfold visit_test in H1. destruct (v_ign_test E nm); [inversion H1; subst; exact V|].
      cbn [set_tset s_tests set_tests s_last] in H1. destruct (is_nil (s_tests st)); [|discriminate]. cbn [guard obind] in H1.
      destruct (is_none (s_last st)); [|discriminate]. cbn [guard obind] in H1. inversion H1; subst. ext V. }
    destruct (if w then fold_kids (walk E) ks st1 else Some st1) as [st2|] eqn:H2; [|discriminate]. cbn [obind].
    assert (V2 : wok st2) by (destruct w; [eapply wok_fold; eauto|inversion H2; subst; exact V1]).
    unfold visit_test_post. cbn [set_last s_tests]. destruct (s_tests st2) as [|t [|t' r]]; [| |discriminate].
    + destruct (v_ign_test E nm); [|discriminate]. cbn [guard obind]. intros H; inversion H; subst. ext V2.
    + destruct (text_eqb t nm); [|discriminate]. cbn [guard obind]. intros H; inversion H; subst. ext V2.
  - destruct (fw_expr_kids (v_fw E)); [apply (wok_fold ks IH); assumption|intros H; inversion H; subst; exact V].
  - apply (wok_fold ks IH); assumption.
Qed.
Lemma next_pend_empty st : next_local_function st = None -> s_pend st = [].
Proof. unfold next_local_function. destruct (rev (s_pend st)) as [|[g ts] r] eqn:Hr; [|discriminate]. intros _. rewrite <- (rev_involutive (s_pend st)), Hr. reflexivity. Qed.
Lemma wok_loop fuel : forall st st', wok st -> local_loop E fuel st = LDone st' -> wok st' /\ s_pend st' = [].
Proof.
  induction fuel as [|fuel IH]; intros st st' V; cbn [local_loop]; destruct (next_local_function st) as [[f st1]|] eqn:Hn; try discriminate;
    try (intros H; inversion H; subst; split; [exact V|apply next_pend_empty; exact Hn]).
  destruct (fold_kids (walk E) (n_kids f) st1) as [st2|] eqn:Hw; [|discriminate]. apply IH.
  eapply wok_fold; [apply Forall_forall; intros k _ a b; apply wok_walk| |exact Hw].
  unfold next_local_function in Hn. destruct (rev (s_pend st)) as [|[g ts] r] eqn:Hr; [discriminate|]. inversion Hn; subst.
  assert (Hp : s_pend st = rev r ++ [(f, ts)]) by (rewrite <- (rev_involutive (s_pend st)), Hr; reflexivity).
  match goal with |- wok ?s => assert (X : s_warn s = s_warn st /\ forall h, In h (functions s) <-> In h (functions st)) end.
  { split; [reflexivity|]. intros h. unfold functions. rewrite Hp, keys_app. cbn [set_tests set_ret set_pend s_pend s_ret keys map fst]. rewrite !in_app_iff. cbn [In]. tauto. }
  destruct X as [X1 X2]. destruct V as [V1 V2]. constructor; rewrite X1.
  - intros x Hx. destruct (V1 x Hx) as (a & b & l & h & Ha & Hin & Hs). exists a, b, l, h. rewrite X2. auto.
  - intros h Hh. apply X2 in Hh. exact (V2 h Hh).
Qed.
Lemma wok_file fuel root st : visit_file E fuel root = LDone st -> wok st /\ s_pend st = [].
Proof.
  unfold visit_file. destruct (walk E root init_vst) as [st0|] eqn:Hw; [|discriminate]. intros H.
  apply wok_loop in H; [exact H|]. eapply wok_walk; [|exact Hw]. constructor; cbn; intros x [].
Qed.
End Warn.

(** A local function has one name. *)
Definition names_apart (E : venv) : Prop := forall x y f fs gs, v_walkable E x = f :: fs -> v_walkable E y = f :: gs -> x = y.

(** The names that are warned of are names of several local functions, the first of which is called from the file or from another local function. Every name of
    several local functions is warned of whose first function a test of the file calls, directly or not. *)
Theorem C35_ambiguous : forall E root st, parsed E root -> result E root st -> functions_apart E ->
  (forall x, In x (s_warn st) -> exists f g r, v_walkable E x = f :: g :: r /\ called E root f) /\
  (calls_in_tests_only E root -> names_apart E -> forall x f g r, v_walkable E x = f :: g :: r -> reached E root f -> In x (s_warn st)).
Proof.
  intros E root st HP HR FA. destruct (C35_walked_once E root st HP HR) as (_ & _ & HCl). pose proof HR as (fuel & Hv). destruct (wok_file E fuel root st Hv) as ([W1 W2] & Hp).
  unfold functions in *. rewrite Hp in *. cbn [keys map app] in *. split.
  - intros x Hx. destruct (W1 x Hx) as (f & g & r & h & Hf & Hh & Hs). exists f, g, r. split; [exact Hf|].
    destruct (W2 h Hh) as (y & l & Hy & _). assert (f = h) by (eapply FA; eassumption). subst h. apply HCl. exact Hh.
  - intros HO NA x f g r Hx Hf. destruct (history_of E root st HP HR) as (H & HH & HC & (_ & _ & Z)).
    destruct (reached_walked E root H HH HC FA HO f Hf) as (b & t & Hb & Hbf & _). assert (Hin : In f (s_ret st)).
    { rewrite Z. unfold done. apply in_flat_map. exists b. split; [exact Hb|]. rewrite Hbf. left. reflexivity. }
    destruct (W2 f Hin) as (y & l & Hy & Hl). assert (y = x) by (eapply NA; eassumption). subst y. apply Hl. rewrite Hx in Hy. inversion Hy. discriminate.
Qed.
Print Assumptions C35_ambiguous.

(** Two functions are named [h], and the test calls [h]. *)
Definition a_wk (x : text) : list node := if text_eqb x (s2t "h") then [g_h; mk 95 KGroup 1 70 75 []] else [].
Definition a_env := x_env fw_go ["f"%string] [] false a_wk g_ct.
Example C35_ambiguous_nonvacuous : parsed a_env g_root /\ result a_env g_root (st_of a_env g_root) /\ functions_apart a_env /\ names_apart a_env /\
  calls_in_tests_only a_env g_root /\ reached a_env g_root g_h /\ (exists g r, v_walkable a_env (s2t "h") = g_h :: g :: r) /\ s_warn (st_of a_env g_root) = [s2t "h"] /\ s_warn g_st = [].
Proof.
  assert (WK : forall x f fs, v_walkable a_env x = f :: fs -> x = s2t "h" /\ f = g_h).
  { intros x f fs H. change (a_wk x = f :: fs) in H. unfold a_wk in H. destruct (text_eqb x (s2t "h")) eqn:X; [|discriminate]. apply text_eqb_eq in X. inversion H. auto. }
  split. { split; [reflexivity|]. intros x f fs H. apply WK in H. destruct H as (_ & ->). reflexivity. }
  split; [exists 9; vm_compute; reflexivity|].
  split. { intros x y f g fs gs H1 H2 _. apply WK in H1, H2. destruct H1, H2. congruence. }
  split. { intros x y f fs gs H1 H2. apply WK in H1, H2. destruct H1, H2. congruence. }
  split. { intros c f Hp Hs. assert (Hw : In c [g_root; g_test]).
    { inversion Hp as [|n k m K Hk Hp']; subst; [left; reflexivity|]. destruct Hk as [<-|[]].
      inversion Hp' as [|n k m K' Hk' Hp'']; subst; [right; left; reflexivity|].
      exfalso. destruct K' as [(? & ? & ? & ? & K')|[(? & ? & K')|[(? & K')|[K'|(_ & [K'|[(? & K')|[K'|(? & K')]]])]]]]; discriminate. }
    destruct Hs as (x & K). destruct Hw as [<-|[<-|[]]]; discriminate. }
  split. { eapply (re_test _ _ g_test (s2t "TestT") (x_call 61 1 38 41 "h" [])).
    - split; [eapply tp_kid; [right; right; right; left; reflexivity|left; reflexivity|constructor]|]. split; [eexists; reflexivity|reflexivity].
    - eexists. split; [left; reflexivity|]. eapply op_kid; [right; left; reflexivity|right; right; right; left; reflexivity|].
      eapply op_kid; [left; eexists _, _, _, _; reflexivity|left; reflexivity|constructor].
    - eexists. reflexivity.
    - eexists _, _, (s2t "h"), _. split; [reflexivity|]. split; reflexivity. }
  split; [eexists _, _; reflexivity|]. split; vm_compute; reflexivity.
Qed.
