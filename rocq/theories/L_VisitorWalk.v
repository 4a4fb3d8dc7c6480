From Verif Require Import Base M_Text M_Rewriter M_Span L_Span M_Run M_Visitor S_Visitor L_Visitor L_VisitorLive.
From Coq Require Import Lia.

Lemma headc_none_call E n ctx : ctx <> None -> headc E n ctx -> head_is_call n = true /\ head_ok E n = true.
Proof. intros Hn [H|H]; [contradiction|exact H]. Qed.

Lemma stmt_contrib E live L R s ctx k sp : is_stmt s ->
  (contributes E live L R s ctx k sp <->
   live = true /\ (forall c, ~ call_statement s c) /\ ~ kept E L s /\ control s = false /\ declaration s = false /\
   ~ contains_stmt E live L R s /\ v_skip E (n_span s) = false /\ k = Statement /\ sp = n_span s).
Proof.
  intros (r0 & c0 & d0 & e0 & K). split.
  - intros H. destruct H as [s ctx|s c [(x & K')|(x & K')]|c ctx x b p sp K']; [|congruence|congruence|congruence].
    repeat split; auto.
  - intros (H1 & H2 & H3 & H4 & H5 & H6 & H7 & -> & ->). apply cb_leaf; auto. exists r0, c0, d0, e0. exact K.
Qed.

Lemma removable_kept E st s :
  removable s && negb (is_last E st s) = true <-> ~ kept E (s_last st) s.
Proof.
  rewrite kept_iff, Bool.andb_true_iff, Bool.negb_true_iff. unfold is_last.
  destruct (removable s); [|split; [intros [? ?]; discriminate|intros H; exfalso; auto]].
  destruct (match s_last st with Some l => same E l s | None => false end); split; intuition congruence.
Qed.

(** What [visit_statement_post] does. *)
Lemma post_spec E s st st' : visit_statement_post E s st = Some st' ->
  s_call st = None /\ exists nb rest, s_before st = nb :: rest /\
  s_call st' = None /\ s_tests st' = s_tests st /\ s_last st' = s_last st /\ s_before st' = rest /\
  s_ret st' = s_ret st /\ s_tset st' = s_tset st /\ s_pend st' = s_pend st /\
  s_leaves st' = (if (nb =? s_leaves st)%nat then S (s_leaves st) else s_leaves st) /\
  forall k sp t, lists (s_maps st') k sp t <-> lists (s_maps st) k sp t \/
    (In t (s_tests st) /\ nb = s_leaves st /\ ~ kept E (s_last st) s /\ (forall c, ~ call_statement s c) /\
     control s = false /\ declaration s = false /\ v_skip E (n_span s) = false /\ k = Statement /\ sp = n_span s).
Proof.
  unfold visit_statement_post. destruct (s_call st) as [c|] eqn:Hc; [discriminate|]. cbn [is_none guard obind].
  destruct (s_before st) as [|nb rest] eqn:Hb; [discriminate|].
  change (s_leaves (set_before rest st)) with (s_leaves st).
  destruct (nb =? s_leaves st)%nat eqn:Hn; cbn [negb].
  2:{ intros H; inversion H; subst st'; clear H. split; [reflexivity|]. exists nb, rest. rewrite Hn. repeat split; try assumption; try reflexivity.
      - auto.
      - apply PeanoNat.Nat.eqb_neq in Hn. intros [?|(_ & ? & _)]; [assumption|congruence]. }
  intros H. split; [reflexivity|]. exists nb, rest. rewrite Hn. apply PeanoNat.Nat.eqb_eq in Hn.
  set (st1 := set_leaves (S (s_leaves st)) (set_before rest st)) in *.
  change (s_tests st1) with (s_tests st) in H.
  destruct (negb (is_nil (s_tests st)) && removable s && negb (is_last E st1 s) && negb (statement_is_call s) &&
            negb (control s) && negb (declaration s)) eqn:Hg.
  - rewrite !Bool.andb_true_iff, !Bool.negb_true_iff in Hg. destruct Hg as [[[[[G1 G2] G3] G4] G5] G6].
    apply register_span_spec in H. destruct H as [(m & ->) Hl].
    repeat split; try assumption; try reflexivity.
    + rewrite Hl. intros [H|(-> & -> & Hs & Ht)]; [left; exact H|]. right.
      split; [exact Ht|]. split; [exact Hn|]. split.
      { apply (removable_kept E st). rewrite G2. unfold is_last in *. subst st1. cbn [set_leaves set_before s_last] in G3. rewrite G3. reflexivity. }
      split; [apply statement_is_call_false; exact G4|]. auto.
    + intros [H|(Ht & _ & Hk & _ & _ & _ & Hs & -> & ->)]; apply Hl; [left; exact H|]. right. auto.
  - inversion H; subst st'; clear H. repeat split; try assumption; try reflexivity.
    + auto.
    + intros [H|(Ht & _ & Hk & Hc' & H1 & H2 & _)]; [exact H|]. exfalso.
      apply (removable_kept E st) in Hk. apply statement_is_call_false in Hc'.
      rewrite Bool.andb_true_iff, Bool.negb_true_iff in Hk. destruct Hk as [Hk1 Hk2].
      change (is_last E st1 s) with (is_last E st s) in Hg. rewrite Hk1, Hk2, Hc', H1, H2 in Hg.
      destruct (s_tests st); [destruct Ht|]. discriminate.
Qed.

Lemma visit_statement_spec s st st' : visit_statement s st = Some st' ->
  s_tests st' = s_tests st /\ s_last st' = s_last st /\ s_before st' = s_leaves st :: s_before st /\
  s_ret st' = s_ret st /\ s_tset st' = s_tset st /\ s_maps st' = s_maps st /\ s_pend st' = s_pend st /\
  s_leaves st' = s_leaves st /\
  s_call st' = (if statement_is_call s then Some s else s_call st) /\
  (statement_is_call s = true -> s_call st = None).
Proof.
  unfold visit_statement. destruct (statement_is_call s) eqn:Hs.
  - cbn [set_before s_call]. destruct (s_call st) eqn:Hc; [discriminate|]. cbn [is_none guard obind].
    intros H; inversion H; subst st'. repeat split; auto.
  - intros H; inversion H; subst st'. repeat split; auto. discriminate.
Qed.

(** The statement is a head when it performs a call, and the traversal reaches it. *)
Lemma stmt_head E l ks : well_formed E (Node l ks) = true -> is_stmt (Node l ks) ->
  statement_is_call (Node l ks) = true -> exists k r, ks = k :: r /\ forall s, headc E k (Some s).
Proof.
  intros W (r0 & c0 & d0 & e0 & K) Hs. unfold n_kind in K. cbn [n_lab] in K.
  unfold statement_is_call, n_kind in Hs. cbn [n_lab n_kids] in Hs. rewrite K in Hs.
  destruct e0; [|discriminate]. destruct ks as [|e r]; [discriminate|].
  exists e, r. split; [reflexivity|]. intros s. right. split; [exact Hs|].
  cbn [well_formed] in W. rewrite K in W. apply Bool.andb_true_iff in W. apply W.
Qed.

Lemma walk_live_all E n : walk_live E n.
Proof.
  induction n as [l ks IH] using node_ind'. intros st st' W Hne Hig Hh H.
  assert (Wk : forallb (well_formed E) ks = true) by (eapply wf_kids; exact W).
  destruct (l_kind l) as [r0 c0 d0 e0| |o|h nm|nm|nm|nm bi| |] eqn:K.
  - (* statement *)
    assert (Hst : is_stmt (Node l ks)) by (exists r0, c0, d0, e0; exact K).
    assert (Hc0 : s_call st = None).
    { destruct Hh as [Hh|[Hh _]]; [exact Hh|]. cbn [head_is_call] in Hh. rewrite K in Hh. discriminate. }
    cbn [walk] in H. rewrite K in H.
    destruct (visit_statement (Node l ks) st) as [st1|] eqn:H1; [|discriminate]. cbn [obind] in H.
    destruct (fold_kids (walk E) ks st1) as [st2|] eqn:H2; [|discriminate]. cbn [obind] in H.
    apply visit_statement_spec in H1. destruct H1 as (A1 & A2 & A3 & A4 & A5 & A6 & A7 & A8 & A9 & _).
    rewrite Hc0 in A9.
    apply fold_live in H2; [|exact IH|exact Wk|congruence|intros t; rewrite A1; apply Hig|].
    2:{ rewrite A9. destruct (statement_is_call (Node l ks)) eqn:Hs; [right|left; reflexivity].
        destruct (stmt_head E l ks W Hst Hs) as (k & r & -> & Hk). exists k, r. auto. }
    destruct H2 as (B1 & B2 & B3).
    rewrite A1, A2, A4, A9 in B1. rewrite A2, A4, A9 in B3.
    apply post_spec in H. destruct H as (_ & nb & rest & Hb & C1 & C2 & C3 & C4 & C5 & C6 & C7 & C8 & C9).
    assert (Hnb : nb = s_leaves st /\ rest = s_before st).
    { rewrite (h_before _ _ _ _ _ B1), A3 in Hb. inversion Hb; auto. }
    destruct Hnb as [-> ->].
    assert (Hcont : s_leaves st2 = s_leaves st <-> ~ contains_stmt E true (s_last st) (s_ret st) (Node l ks)).
    { destruct B3 as [B3 B4]. rewrite A8 in B3, B4.
      rewrite (contains_below E true _ _ _ Hst None).
      assert (Hx : (exists m c, LV E true (s_last st) (s_ret st) (if statement_is_call (Node l ks) then Some (Node l ks) else None) ks m c /\ is_stmt m) <->
                   exists m c, below E true (s_last st) (s_ret st) (Node l ks) None m c /\ is_stmt m).
      { split; intros (m & c & HV & Hm); exists m, c; split; auto; apply (below_stmt E true _ _ (Node l ks) None m c Hst); exact HV. }
      rewrite <- Hx, <- B4. lia. }
    assert (Hvis : forall m c, visits E true (s_last st) (s_ret st) (Node l ks) (s_call st) m c <->
      LV E true (s_last st) (s_ret st) (if statement_is_call (Node l ks) then Some (Node l ks) else None) ks m c \/
      (m = Node l ks /\ c = s_call st)).
    { intros m c. rewrite visits_inv. fold (below E true (s_last st) (s_ret st) (Node l ks) (s_call st) m c).
      rewrite (below_stmt E true _ _ _ _ _ _ Hst). cbn [n_kids]. tauto. }
    split; [|split; [exact C1|]].
    + eapply holds_iff; [intros m c; symmetry; apply Hvis|].
      assert (B1' : holds E (Qlive E (s_tests st) (s_last st) (s_ret st))
        (LV E true (s_last st) (s_ret st) (if statement_is_call (Node l ks) then Some (Node l ks) else None) ks) st (set_before (s_before st) st2)).
      { destruct B1. constructor; cbn [set_before s_tests s_last s_before s_ret s_tset s_maps s_pend]; try congruence; auto;
          rewrite ?A5, ?A6, ?A7 in *; auto. }
      eapply holds_trans; [exact B1'|].
      pose proof (h_tests _ _ _ _ _ B1') as T1. cbn [set_before s_tests] in T1.
      pose proof (h_last _ _ _ _ _ B1') as T2. cbn [set_before s_last] in T2.
      constructor; cbn [set_before s_tests s_last s_before s_ret s_tset s_maps s_pend Qlive q_c q_k q_p q_t]; try assumption;
        rewrite ?C6, ?C7; auto.
      * intros t. split; [auto|]. intros [?|(m & c & _ & [])]; assumption.
      * intros k sp t. rewrite C9, T1, T2. split.
        { intros [?|(Ht & Hl & Hk & Hcs & Hct & Hd & Hs & -> & ->)]; [auto|]. right.
          exists (Node l ks), (s_call st). split; [auto|]. split; [exact Ht|].
          apply stmt_contrib; [exact Hst|]. repeat split; auto. apply Hcont. congruence. }
        { intros [?|(m & c & [-> ->] & Ht & Hc)]; [auto|]. right. apply stmt_contrib in Hc; [|exact Hst].
          destruct Hc as (_ & Hcs & Hk & Hct & Hd & Hns & Hs & -> & ->).
          split; [exact Ht|]. split; [symmetry; apply Hcont; exact Hns|]. auto 10. }
      * intros m c f [-> ->] [(x & Hx) _]. exfalso. unfold n_kind in Hx; cbn [n_lab] in Hx. congruence.
      * intros m c f t [-> ->] (_ & (x & Hx) & _). exfalso. unfold n_kind in Hx; cbn [n_lab] in Hx. congruence.
    + destruct B3 as [B3 B4]. rewrite A8 in B3, B4. split.
      * rewrite C8. destruct (s_leaves st =? s_leaves st2)%nat eqn:Hq; [apply PeanoNat.Nat.eqb_eq in Hq|]; lia.
      * split.
        { intros _. exists (Node l ks), (s_call st). split; [apply vi_here|exact Hst]. }
        { intros _. rewrite C8. destruct (s_leaves st =? s_leaves st2)%nat eqn:Hq; [apply PeanoNat.Nat.eqb_eq in Hq|apply PeanoNat.Nat.eqb_neq in Hq]; lia. }
  - (* await *)
    assert (Kn : n_kind (Node l ks) = KAwait \/ exists x, n_kind (Node l ks) = KField x) by (left; exact K).
    assert (Hin : inert (Node l ks)) by (unfold inert, n_kind; cbn [n_lab]; rewrite K; exact I).
    assert (Hns : ~ is_stmt (Node l ks)) by (intros (a & b & c & d & Kx); unfold n_kind in Kx; cbn [n_lab] in Kx; congruence).
    cbn [walk] in H. rewrite K in H. destruct (fw_expr_kids (v_fw E)) eqn:He.
    + apply fold_live in H; [|exact IH|exact Wk|exact Hne|exact Hig|].
      2:{ destruct Hh as [Hh|[Hh1 Hh2]]; [left; exact Hh|]. right. cbn [head_is_call] in Hh1. cbn [head_ok] in Hh2. rewrite K in Hh1, Hh2.
          destruct ks as [|b r]; [discriminate|]. exists b, r. split; [reflexivity|]. right. split; [exact Hh1|].
          rewrite Hh1 in Hh2. cbn [negb orb] in Hh2. apply Bool.andb_true_iff in Hh2. apply Hh2. }
      destruct H as (B1 & B2 & B3). split; [|split; [exact B2|]].
      * eapply node_then_below; [apply inert_live; exact Hin|exact B1|].
        intros m c. rewrite (below_chain E true _ _ _ _ _ _ Kn). cbn [n_kids]. tauto.
      * eapply node_then_below_leaf; [apply (at_leafc _ _ st st); auto|exact B3|].
        intros m c. rewrite (below_chain E true _ _ _ _ _ _ Kn). cbn [n_kids]. tauto.
    + inversion H; subst st'; clear H.
      assert (Hc0 : s_call st = None).
      { destruct Hh as [Hh|[Hh1 Hh2]]; [exact Hh|]. exfalso. cbn [head_is_call] in Hh1. cbn [head_ok] in Hh2. rewrite K in Hh1, Hh2.
        destruct ks as [|b r]; [discriminate|]. rewrite Hh1, He in Hh2. discriminate. }
      split; [|split; [exact Hc0|]].
      * apply nothing_below; [apply inert_live; exact Hin|]. intros m c. rewrite (below_chain E true _ _ _ _ _ _ Kn). intros [? _]; congruence.
      * apply nothing_below_leaf; [apply at_leafc; auto|]. intros m c. rewrite (below_chain E true _ _ _ _ _ _ Kn). intros [? _]; congruence.
  - (* field *)
    assert (Kn : n_kind (Node l ks) = KAwait \/ exists x, n_kind (Node l ks) = KField x) by (right; exists o; exact K).
    assert (Hin : inert (Node l ks)) by (unfold inert, n_kind; cbn [n_lab]; rewrite K; exact I).
    assert (Hns : ~ is_stmt (Node l ks)) by (intros (a & b & c & d & Kx); unfold n_kind in Kx; cbn [n_lab] in Kx; congruence).
    cbn [walk] in H. rewrite K in H. destruct (fw_expr_kids (v_fw E)) eqn:He.
    + apply fold_live in H; [|exact IH|exact Wk|exact Hne|exact Hig|].
      2:{ destruct Hh as [Hh|[Hh1 Hh2]]; [left; exact Hh|]. right. cbn [head_is_call] in Hh1. cbn [head_ok] in Hh2. rewrite K in Hh1, Hh2.
          destruct ks as [|b r]; [discriminate|]. exists b, r. split; [reflexivity|]. right. split; [exact Hh1|].
          rewrite Hh1 in Hh2. cbn [negb orb] in Hh2. apply Bool.andb_true_iff in Hh2. apply Hh2. }
      destruct H as (B1 & B2 & B3). split; [|split; [exact B2|]].
      * eapply node_then_below; [apply inert_live; exact Hin|exact B1|].
        intros m c. rewrite (below_chain E true _ _ _ _ _ _ Kn). cbn [n_kids]. tauto.
      * eapply node_then_below_leaf; [apply (at_leafc _ _ st st); auto|exact B3|].
        intros m c. rewrite (below_chain E true _ _ _ _ _ _ Kn). cbn [n_kids]. tauto.
    + inversion H; subst st'; clear H.
      assert (Hc0 : s_call st = None).
      { destruct Hh as [Hh|[Hh1 Hh2]]; [exact Hh|]. exfalso. cbn [head_is_call] in Hh1. cbn [head_ok] in Hh2. rewrite K in Hh1, Hh2.
        destruct ks as [|b r]; [discriminate|]. rewrite Hh1, He in Hh2. discriminate. }
      split; [|split; [exact Hc0|]].
      * apply nothing_below; [apply inert_live; exact Hin|]. intros m c. rewrite (below_chain E true _ _ _ _ _ _ Kn). intros [? _]; congruence.
      * apply nothing_below_leaf; [apply at_leafc; auto|]. intros m c. rewrite (below_chain E true _ _ _ _ _ _ Kn). intros [? _]; congruence.
  - assert (Hns : ~ is_stmt (Node l ks)) by (intros (a & b & c & d & Kx); unfold n_kind in Kx; cbn [n_lab] in Kx; congruence).
    destruct h.
    + (* hidden call *)
      assert (Hin : inert (Node l ks)) by (unfold inert, n_kind; cbn [n_lab]; rewrite K; reflexivity).
      assert (Hc0 : s_call st = None).
      { destruct Hh as [Hh|[Hh1 Hh2]]; [exact Hh|]. exfalso. cbn [head_ok] in Hh2. rewrite K in Hh2. discriminate. }
      cbn [walk] in H. rewrite K in H.
      apply fold_live in H; [|exact IH|exact Wk|exact Hne|exact Hig|left; exact Hc0].
      destruct H as (B1 & B2 & B3). split; [|split; [exact B2|]]; rewrite Hc0 in *.
      * eapply node_then_below; [apply inert_live; exact Hin|exact B1|].
        intros m c. rewrite (below_hidden E true _ _ _ None _ _ _ (K : n_kind (Node l ks) = _)). cbn [n_kids]. reflexivity.
      * eapply node_then_below_leaf; [apply (at_leafc _ _ st st); auto|exact B3|].
        intros m c. rewrite (below_hidden E true _ _ _ None _ _ _ (K : n_kind (Node l ks) = _)). cbn [n_kids]. reflexivity.
    + (* call *)
      assert (Hcn : callnode (Node l ks)) by (exists nm; exact K).
      cbn [walk] in H. rewrite K in H.
      destruct (visit_call E (Node l ks) st) as [[st1 w]|] eqn:H1; [|discriminate]. cbn [obind] in H.
      pose proof (call_holds_live E _ _ _ _ Hne Hcn W H1) as A.
      apply visit_call_spec in H1; [|exact Hcn|exact W]. cbn zeta in H1.
      rewrite (proj2 (liveb_iff st) Hne) in H1.
      destruct H1 as ((F1 & F2 & F3 & F4 & F5 & F6 & F7) & Hw & _ & _).
      destruct w.
      * assert (Hop : ~ closed E true (s_last st) (s_ret st) (Node l ks) (s_call st)) by (rewrite <- Hw; discriminate).
        apply fold_live in H; [|exact IH|exact Wk|congruence|intros t; rewrite F3; apply Hig|left; exact F1].
        rewrite F3, F4, F6, F1 in H.
        destruct H as (B1 & B2 & B3). split; [|split; [exact B2|]].
        { eapply node_then_below; [exact A|exact B1|].
          intros m c. rewrite (below_open E true _ _ _ _ _ _ _ (K : n_kind (Node l ks) = _) Hop). cbn [n_kids]. reflexivity. }
        { eapply node_then_below_leaf; [apply at_leafc; eassumption|exact B3|].
          intros m c. rewrite (below_open E true _ _ _ _ _ _ _ (K : n_kind (Node l ks) = _) Hop). cbn [n_kids]. reflexivity. }
      * assert (Hcl : closed E true (s_last st) (s_ret st) (Node l ks) (s_call st)) by (apply Hw; reflexivity).
        destruct (fw_skip_whole (v_fw E)) eqn:Hsk.
        { inversion H; subst st'; clear H. split; [|split; [exact F1|]].
          - apply nothing_below; [exact A|]. intros m c. apply (below_closed_skip E true _ _ _ _ _ _ _ (K : n_kind (Node l ks) = _) Hcl Hsk).
          - apply nothing_below_leaf; [apply at_leafc; assumption|]. intros m c. apply (below_closed_skip E true _ _ _ _ _ _ _ (K : n_kind (Node l ks) = _) Hcl Hsk). }
        { destruct ks as [|callee args]; [cbn [well_formed] in W; rewrite K in W; discriminate|].
          inversion IH as [|? ? IHc _]; subst.
          cbn [forallb] in Wk. apply Bool.andb_true_iff in Wk. destruct Wk as [Wc _].
          apply IHc in H; [|exact Wc|congruence|intros t; rewrite F3; apply Hig|left; exact F1].
          rewrite F3, F4, F6, F1 in H.
          destruct H as (B1 & B2 & B3). split; [|split; [exact B2|]].
          - eapply node_then_below; [exact A|exact B1|].
            intros m c. rewrite (below_closed_callee E true _ _ _ _ _ _ _ _ _ (K : n_kind (Node l (callee :: args)) = _) Hcl Hsk eq_refl). reflexivity.
          - eapply node_then_below_leaf; [apply at_leafc; eassumption|exact B3|].
            intros m c. rewrite (below_closed_callee E true _ _ _ _ _ _ _ _ _ (K : n_kind (Node l (callee :: args)) = _) Hcl Hsk eq_refl). reflexivity. }
  - (* macro *)
    assert (Hns : ~ is_stmt (Node l ks)) by (intros (a & b & c & d & Kx); unfold n_kind in Kx; cbn [n_lab] in Kx; congruence).
    cbn [walk] in H. rewrite K in H.
    destruct (visit_macro_call E nm (l_span l) st) as [[st1 w]|] eqn:H1; [|discriminate]. cbn [obind] in H.
    pose proof (macro_holds_live E (Node l ks) _ _ _ _ _ Hne K H1) as A.
    apply (visit_macro_spec E (Node l ks)) in H1; [|exact K]. cbn zeta in H1.
    rewrite (proj2 (liveb_iff st) Hne) in H1.
    destruct H1 as ((F1 & F2 & F3 & F4 & F5 & F6 & F7) & Hw & _ & _).
    destruct w.
    + assert (Hop : ~ closed E true (s_last st) (s_ret st) (Node l ks) (s_call st)) by (rewrite <- Hw; discriminate).
      apply fold_live in H; [|exact IH|exact Wk|congruence|intros t; rewrite F3; apply Hig|left; exact F1].
      rewrite F3, F4, F6, F1 in H.
      destruct H as (B1 & B2 & B3). split; [|split; [exact B2|]].
      * eapply node_then_below; [exact A|exact B1|].
        intros m c. rewrite (below_macro_open E true _ _ _ _ _ _ _ (K : n_kind (Node l ks) = _) Hop). cbn [n_kids]. reflexivity.
      * eapply node_then_below_leaf; [apply at_leafc; eassumption|exact B3|].
        intros m c. rewrite (below_macro_open E true _ _ _ _ _ _ _ (K : n_kind (Node l ks) = _) Hop). cbn [n_kids]. reflexivity.
    + assert (Hcl : closed E true (s_last st) (s_ret st) (Node l ks) (s_call st)) by (apply Hw; reflexivity).
      inversion H; subst st'; clear H. split; [|split; [exact F1|]].
      * apply nothing_below; [exact A|]. intros m c. apply (below_macro_closed E true _ _ _ _ _ _ _ (K : n_kind (Node l ks) = _) Hcl).
      * apply nothing_below_leaf; [apply at_leafc; assumption|]. intros m c. apply (below_macro_closed E true _ _ _ _ _ _ _ (K : n_kind (Node l ks) = _) Hcl).
  - (* identifier *)
    assert (Kn : n_kind (Node l ks) = KExpr \/ exists x, n_kind (Node l ks) = KIdent x) by (right; exists nm; exact K).
    assert (Hin : inert (Node l ks)) by (unfold inert, n_kind; cbn [n_lab]; rewrite K; exact I).
    assert (Hns : ~ is_stmt (Node l ks)) by (intros (a & b & c & d & Kx); unfold n_kind in Kx; cbn [n_lab] in Kx; congruence).
    assert (Hc0 : s_call st = None).
    { destruct Hh as [Hh|[Hh1 _]]; [exact Hh|]. cbn [head_is_call] in Hh1. rewrite K in Hh1. discriminate. }
    cbn [walk] in H. rewrite K in H. destruct (fw_expr_kids (v_fw E)) eqn:He.
    + apply fold_live in H; [|exact IH|exact Wk|exact Hne|exact Hig|left; exact Hc0].
      rewrite Hc0 in *. destruct H as (B1 & B2 & B3). split; [|split; [exact B2|]].
      * eapply node_then_below; [apply inert_live; exact Hin|exact B1|].
        intros m c. rewrite (below_expr E true _ _ _ _ _ _ Kn). cbn [n_kids]. tauto.
      * eapply node_then_below_leaf; [apply (at_leafc _ _ st st); auto|exact B3|].
        intros m c. rewrite (below_expr E true _ _ _ _ _ _ Kn). cbn [n_kids]. tauto.
    + inversion H; subst st'; clear H. split; [|split; [exact Hc0|]].
      * apply nothing_below; [apply inert_live; exact Hin|]. intros m c. rewrite (below_expr E true _ _ _ _ _ _ Kn). intros [? _]; congruence.
      * apply nothing_below_leaf; [apply at_leafc; auto|]. intros m c. rewrite (below_expr E true _ _ _ _ _ _ Kn). intros [? _]; congruence.
  - (* test: an ignored one is passed over, any other panics *)
    assert (Hns : ~ is_stmt (Node l ks)) by (intros (a & b & c & d & Kx); unfold n_kind in Kx; cbn [n_lab] in Kx; congruence).
    cbn [walk] in H. rewrite K in H. exfalso.
    unfold visit_test in H. destruct (v_ign_test E nm) eqn:Hi; cbn [obind] in H.
    + unfold visit_test_post in H. cbn [set_last s_tests] in H.
      destruct (s_tests st) as [|t [|t' r]] eqn:Ht; [congruence| |discriminate].
      destruct (text_eqb t nm) eqn:Hq; [|discriminate]. apply text_eqb_eq in Hq. subst t.
      rewrite (Hig nm) in Hi; [discriminate|left; reflexivity].
    + cbn [set_tset s_tests] in H. destruct (s_tests st); [congruence|discriminate].
  - (* expression *)
    assert (Kn : n_kind (Node l ks) = KExpr \/ exists x, n_kind (Node l ks) = KIdent x) by (left; exact K).
    assert (Hin : inert (Node l ks)) by (unfold inert, n_kind; cbn [n_lab]; rewrite K; exact I).
    assert (Hns : ~ is_stmt (Node l ks)) by (intros (a & b & c & d & Kx); unfold n_kind in Kx; cbn [n_lab] in Kx; congruence).
    assert (Hc0 : s_call st = None).
    { destruct Hh as [Hh|[Hh1 _]]; [exact Hh|]. cbn [head_is_call] in Hh1. rewrite K in Hh1. discriminate. }
    cbn [walk] in H. rewrite K in H. destruct (fw_expr_kids (v_fw E)) eqn:He.
    + apply fold_live in H; [|exact IH|exact Wk|exact Hne|exact Hig|left; exact Hc0].
      rewrite Hc0 in *. destruct H as (B1 & B2 & B3). split; [|split; [exact B2|]].
      * eapply node_then_below; [apply inert_live; exact Hin|exact B1|].
        intros m c. rewrite (below_expr E true _ _ _ _ _ _ Kn). cbn [n_kids]. tauto.
      * eapply node_then_below_leaf; [apply (at_leafc _ _ st st); auto|exact B3|].
        intros m c. rewrite (below_expr E true _ _ _ _ _ _ Kn). cbn [n_kids]. tauto.
    + inversion H; subst st'; clear H. split; [|split; [exact Hc0|]].
      * apply nothing_below; [apply inert_live; exact Hin|]. intros m c. rewrite (below_expr E true _ _ _ _ _ _ Kn). intros [? _]; congruence.
      * apply nothing_below_leaf; [apply at_leafc; auto|]. intros m c. rewrite (below_expr E true _ _ _ _ _ _ Kn). intros [? _]; congruence.
  - (* group *)
    assert (Hin : inert (Node l ks)) by (unfold inert, n_kind; cbn [n_lab]; rewrite K; exact I).
    assert (Hns : ~ is_stmt (Node l ks)) by (intros (a & b & c & d & Kx); unfold n_kind in Kx; cbn [n_lab] in Kx; congruence).
    assert (Hc0 : s_call st = None).
    { destruct Hh as [Hh|[Hh1 _]]; [exact Hh|]. cbn [head_is_call] in Hh1. rewrite K in Hh1. discriminate. }
    cbn [walk] in H. rewrite K in H.
    apply fold_live in H; [|exact IH|exact Wk|exact Hne|exact Hig|left; exact Hc0].
    rewrite Hc0 in *. destruct H as (B1 & B2 & B3). split; [|split; [exact B2|]].
    + eapply node_then_below; [apply inert_live; exact Hin|exact B1|].
      intros m c. rewrite (below_group E true _ _ _ _ _ _ (K : n_kind (Node l ks) = _)). cbn [n_kids]. reflexivity.
    + eapply node_then_below_leaf; [apply (at_leafc _ _ st st); auto|exact B3|].
      intros m c. rewrite (below_group E true _ _ _ _ _ _ (K : n_kind (Node l ks) = _)). cbn [n_kids]. reflexivity.
Qed.
