From Verif Require Import Base M_Text M_Rewriter M_Span L_Span M_Run M_Visitor S_Visitor L_Visitor L_VisitorLive L_VisitorWalk.
From Coq Require Import Lia.

(** ** Walking code that no test is known to run *)
Definition testnode (E : venv) (m : node) (t : text) : Prop := exists b, n_kind m = KTest t b /\ v_ign_test E t = false.

Definition Qdead (E : venv) (R : list node) : quad :=
  Quad (fun m c k sp t => testnode E m t /\ yields E true (last_statement m) R (n_kids m) k sp)
       (fun m c f => (callnode m /\ calls_local E R m f) \/
                     exists t, testnode E m t /\ yields_call E true (last_statement m) R (n_kids m) f)
       (fun m c f t => testnode E m t /\ yields_call E true (last_statement m) R (n_kids m) f)
       (fun m c t => testnode E m t).

Lemma not_test_silent E R n ctx : (forall t b, n_kind n <> KTest t b) -> ~ callnode n ->
  silent (Qdead E R) (at_node n ctx).
Proof.
  intros Hn Hc m c [-> ->]. cbn [Qdead q_c q_k q_p q_t].
  assert (Ht : forall t, ~ testnode E n t) by (intros t (b & K & _); exact (Hn _ _ K)).
  repeat split.
  - intros k sp t [H _]. exact (Ht _ H).
  - intros f [[H _]|(t & H & _)]; [exact (Hc H)|exact (Ht _ H)].
  - intros f t [H _]. exact (Ht _ H).
  - exact Ht.
Qed.

Lemma call_holds_dead E c st st' w : s_tests st = [] ->
  callnode c -> well_formed E c = true -> visit_call E c st = Some (st', w) ->
  holds E (Qdead E (s_ret st)) (at_node c (s_call st)) st st'.
Proof.
  intros Hnil Hcn W H. pose proof Hcn as (x & K). apply visit_call_spec in H; [|exact Hcn|exact W]. cbn zeta in H.
  destruct H as ((F1 & F2 & F3 & F4 & F5 & F6 & F7) & _ & Hl & Hp). rewrite Hnil in Hl, Hp.
  assert (Ht : forall t, ~ testnode E c t) by (intros t (b & K' & _); congruence).
  constructor; try assumption; cbn [Qdead q_c q_k q_p q_t].
  - intros t. rewrite F7. split; [auto|]. intros [?|(m & y & [-> ->] & H)]; [auto|]. exfalso. exact (Ht _ H).
  - intros k sp t. rewrite Hl. split.
    + intros [?|[[] _]]; auto.
    + intros [?|(m & y & [-> ->] & H & _)]; [auto|]. exfalso. exact (Ht _ H).
  - intros g Hg. destruct Hp as [(f & _ & ->)|[_ ->]]; [apply pend_keys_mono|]; exact Hg.
  - intros g Hg. destruct Hp as [(f & Hf & Hp)|[_ Hp]]; rewrite Hp in Hg; [|auto].
    apply pend_keys_new in Hg. destruct Hg as [Hg| ->]; [auto|]. right. exists c, (s_call st).
    split; [split; reflexivity|left; split; assumption].
  - intros m y f [-> ->] [[_ Hf]|(t & H & _)]; [|exfalso; exact (Ht _ H)].
    destruct Hp as [(f' & Hf' & ->)|[Hno _]]; [|exfalso; exact (Hno _ Hf)].
    rewrite (calls_local_det _ _ _ _ _ Hf Hf'). apply pend_keys_all.
  - intros g t Hg. destruct Hp as [(f & _ & ->)|[_ ->]]; [apply pend_mono|]; exact Hg.
  - intros g t Hg. destruct Hp as [(f & Hf & Hp)|[_ Hp]]; rewrite Hp in Hg; [|auto].
    apply pend_new in Hg. destruct Hg as [Hg|[[] _]]; auto.
  - intros m y f t [-> ->] (H & _). exfalso. exact (Ht _ H).
  - intros Hd. destruct Hp as [(f & _ & ->)|[_ ->]]; [apply pend_distinct|]; exact Hd.
Qed.

Lemma macro_holds_dead E c x sp st st' w : s_tests st = [] ->
  n_kind c = KMacro x -> visit_macro_call E x sp st = Some (st', w) ->
  holds E (Qdead E (s_ret st)) (at_node c (s_call st)) st st' /\ s_call st' = None /\ w = true.
Proof.
  intros Hnil K H. apply (visit_macro_spec E c) in H; [|exact K]. cbn zeta in H.
  destruct H as ((F1 & F2 & F3 & F4 & F5 & F6 & F7) & Hw & Hl & Hp). rewrite Hnil in Hl.
  assert (Ht : forall t, ~ testnode E c t) by (intros t (b & K' & _); congruence).
  split; [|split; [exact F1|]].
  2:{ destruct w; [reflexivity|]. exfalso. destruct (proj1 Hw eq_refl) as ((Hlv & _) & _).
      apply liveb_iff in Hlv. contradiction. }
  constructor; try assumption; cbn [Qdead q_c q_k q_p q_t]; rewrite ?Hp; auto.
  - intros t. rewrite F7. split; [auto|]. intros [?|(m & y & [-> ->] & H)]; [auto|]. exfalso. exact (Ht _ H).
  - intros k sp' t. rewrite Hl. split.
    + intros [?|[[] _]]; auto.
    + intros [?|(m & y & [-> ->] & H & _)]; [auto|]. exfalso. exact (Ht _ H).
  - intros m y f [-> ->] [[(z & Hz) _]|(t & H & _)]; [congruence|exfalso; exact (Ht _ H)].
  - intros m y f t [-> ->] (H & _). exfalso. exact (Ht _ H).
Qed.

Definition walk_dead (E : venv) (n : node) : Prop :=
  forall st st', well_formed E n = true -> s_tests st = [] -> s_last st = None ->
    headc E n (s_call st) ->
    walk E n st = Some st' ->
    holds E (Qdead E (s_ret st)) (visits E false None (s_ret st) n (s_call st)) st st' /\
    s_call st' = None.

Lemma fold_dead E ks : Forall (walk_dead E) ks -> forall st st',
  forallb (well_formed E) ks = true -> s_tests st = [] -> s_last st = None ->
  (s_call st = None \/ exists k r, ks = k :: r /\ headc E k (s_call st)) ->
  fold_kids (walk E) ks st = Some st' ->
  holds E (Qdead E (s_ret st)) (LV E false None (s_ret st) (s_call st) ks) st st' /\
  s_call st' = None.
Proof.
  induction 1 as [|k r Hk _ IH]; intros st st' W Hne Hig Hh H.
  - cbn [fold_kids] in H. inversion H; subst st'; clear H.
    assert (Hn : s_call st = None) by (destruct Hh as [Hh|(k & r & Hx & _)]; [exact Hh|discriminate]).
    split; [|exact Hn]. apply holds_silent; [intros m c []|apply quiet_refl].
  - cbn [fold_kids] in H. destruct (walk E k st) as [st1|] eqn:H1; [|discriminate]. cbn [obind] in H.
    cbn [forallb] in W. apply Bool.andb_true_iff in W. destruct W as [Wk Wr].
    apply Hk in H1; [|exact Wk|exact Hne|exact Hig|
      destruct Hh as [Hh|(k' & r' & Hx & Hh)]; [left; exact Hh|inversion Hx; subst; exact Hh]].
    destruct H1 as (A1 & A2). destruct (holds_frame _ _ _ _ _ A1) as (Ft & Fl & Fb & Fr).
    apply IH in H; [|exact Wr|congruence|congruence|left; exact A2].
    destruct H as (B1 & B2). rewrite Fr, A2 in B1.
    split; [|exact B2].
    eapply holds_iff; [|eapply holds_trans; [exact A1|exact B1]].
    intros m c. cbn [LV]. rewrite LV_none. reflexivity.
Qed.

Lemma dead_open E R n ctx : ~ closed E false None R n ctx.
Proof. intros ((H & _) & _). discriminate. Qed.

Lemma yields_LV E live L R ks k sp :
  yields E live L R ks k sp <-> exists m c, LV E live L R None ks m c /\ contributes E live L R m c k sp.
Proof.
  unfold yields. split.
  - intros (n & m & c & Hn & Hv & Hc). exists m, c. split; [apply LV_none; eauto|exact Hc].
  - intros (m & c & H & Hc). apply LV_none in H. destruct H as (n & Hn & Hv). exists n, m, c. auto.
Qed.
Lemma yields_call_LV E live L R ks f :
  yields_call E live L R ks f <-> exists m c, LV E live L R None ks m c /\ callnode m /\ calls_local E R m f.
Proof.
  unfold yields_call. split.
  - intros (n & m & c & Hn & Hv & Hc). exists m, c. split; [apply LV_none; eauto|exact Hc].
  - intros (m & c & H & Hc). apply LV_none in H. destruct H as (n & Hn & Hv). exists n, m, c. auto.
Qed.

Lemma walk_dead_all E n : walk_dead E n.
Proof.
  induction n as [l ks IH] using node_ind'. intros st st' W Hne Hla Hh H.
  assert (Wk : forallb (well_formed E) ks = true) by (eapply wf_kids; exact W).
  destruct (l_kind l) as [r0 c0 d0 e0| |o|h nm|nm|nm|nm bi| |] eqn:K.
  - (* statement *)
    assert (Hst : is_stmt (Node l ks)) by (exists r0, c0, d0, e0; exact K).
    assert (Hc0 : s_call st = None).
    { destruct Hh as [Hh|[Hh _]]; [exact Hh|]. cbn [head_is_call] in Hh. rewrite K in Hh. discriminate. }
    cbn [walk] in H. rewrite K in H.
    destruct (visit_statement (Node l ks) st) as [st1|] eqn:H1; [|discriminate]. cbn [obind] in H.
    destruct (fold_kids (walk E) ks st1) as [st2|] eqn:H2; [|discriminate]. cbn [obind] in H.
    apply visit_statement_spec in H1. destruct H1 as (A1 & A2 & A3 & A4 & A5 & A6 & A7 & A8 & A9 & _).
    rewrite Hc0 in A9.
    apply fold_dead in H2; [|exact IH|exact Wk|congruence|congruence|].
    2:{ rewrite A9. destruct (statement_is_call (Node l ks)) eqn:Hs; [right|left; reflexivity].
        destruct (stmt_head E l ks W Hst Hs) as (k & r & -> & Hk). exists k, r. auto. }
    destruct H2 as (B1 & B2). rewrite A4, A9 in B1.
    apply post_spec in H. destruct H as (_ & nb & rest & Hb & C1 & C2 & C3 & C4 & C5 & C6 & C7 & C8 & C9).
    assert (Hnb : nb = s_leaves st /\ rest = s_before st).
    { rewrite (h_before _ _ _ _ _ B1), A3 in Hb. inversion Hb; auto. }
    destruct Hnb as [-> ->].
    split; [|exact C1].
    assert (Hvis : forall m c, visits E false None (s_ret st) (Node l ks) (s_call st) m c <->
      LV E false None (s_ret st) (if statement_is_call (Node l ks) then Some (Node l ks) else None) ks m c \/
      at_node (Node l ks) (s_call st) m c).
    { intros m c. rewrite visits_inv. fold (below E false None (s_ret st) (Node l ks) (s_call st) m c).
      rewrite (below_stmt E false _ _ _ _ _ _ Hst). cbn [n_kids]. unfold at_node. tauto. }
    eapply holds_iff; [intros m c; symmetry; apply Hvis|].
    assert (B1' : holds E (Qdead E (s_ret st))
      (LV E false None (s_ret st) (if statement_is_call (Node l ks) then Some (Node l ks) else None) ks) st (set_before (s_before st) st2)).
    { destruct B1. constructor; cbn [set_before s_tests s_last s_before s_ret s_tset s_maps s_pend]; try congruence; auto;
        rewrite ?A5, ?A6, ?A7 in *; auto. }
    eapply holds_trans; [exact B1'|].
    assert (T1 : s_tests st2 = []) by (rewrite (h_tests _ _ _ _ _ B1); congruence).
    assert (S0 : silent (Qdead E (s_ret st)) (at_node (Node l ks) (s_call st))).
    { apply not_test_silent; [intros t b|intros (x & Kx)]; unfold n_kind in *; cbn [n_lab] in *; congruence. }
    assert (Sx : holds E (Qdead E (s_ret st)) (at_node (Node l ks) (s_call st)) (set_before (s_before st) st2) (set_maps (s_maps st2) st')).
    { apply holds_silent; [exact S0|]. repeat split; assumption. }
    destruct Sx. constructor; auto.
    intros k sp t. specialize (h_lists k sp t). cbn [set_maps s_maps set_before] in *.
    rewrite C9, T1. rewrite <- h_lists. split; [intros [?|[[] _]]; auto|auto].
  - (* await *)
    assert (Kn : n_kind (Node l ks) = KAwait \/ exists x, n_kind (Node l ks) = KField x) by (left; exact K).
    assert (Hin : silent (Qdead E (s_ret st)) (at_node (Node l ks) (s_call st))).
    { apply not_test_silent; [intros t b|intros (x & Kx)]; unfold n_kind in *; cbn [n_lab] in *; congruence. }
    cbn [walk] in H. rewrite K in H. destruct (fw_expr_kids (v_fw E)) eqn:He.
    + apply fold_dead in H; [|exact IH|exact Wk|exact Hne|exact Hla|].
      2:{ destruct Hh as [Hh|[Hh1 Hh2]]; [left; exact Hh|]. right. cbn [head_is_call] in Hh1. cbn [head_ok] in Hh2. rewrite K in Hh1, Hh2.
          destruct ks as [|b r]; [discriminate|]. exists b, r. split; [reflexivity|]. right. split; [exact Hh1|].
          rewrite Hh1 in Hh2. cbn [negb orb] in Hh2. apply Bool.andb_true_iff in Hh2. apply Hh2. }
      destruct H as (B1 & B2). split; [|exact B2].
      eapply node_then_below; [apply holds_silent; [exact Hin|apply quiet_refl]|exact B1|].
      intros m c. rewrite (below_chain E false _ _ _ _ _ _ Kn). cbn [n_kids]. tauto.
    + inversion H; subst st'; clear H.
      assert (Hc0 : s_call st = None).
      { destruct Hh as [Hh|[Hh1 Hh2]]; [exact Hh|]. exfalso. cbn [head_is_call] in Hh1. cbn [head_ok] in Hh2. rewrite K in Hh1, Hh2.
        destruct ks as [|b r]; [discriminate|]. rewrite Hh1, He in Hh2. discriminate. }
      split; [|exact Hc0].
      apply nothing_below; [apply holds_silent; [exact Hin|apply quiet_refl]|]. intros m c. rewrite (below_chain E false _ _ _ _ _ _ Kn). intros [? _]; congruence.
  - (* field *)
    assert (Kn : n_kind (Node l ks) = KAwait \/ exists x, n_kind (Node l ks) = KField x) by (right; exists o; exact K).
    assert (Hin : silent (Qdead E (s_ret st)) (at_node (Node l ks) (s_call st))).
    { apply not_test_silent; [intros t b|intros (x & Kx)]; unfold n_kind in *; cbn [n_lab] in *; congruence. }
    cbn [walk] in H. rewrite K in H. destruct (fw_expr_kids (v_fw E)) eqn:He.
    + apply fold_dead in H; [|exact IH|exact Wk|exact Hne|exact Hla|].
      2:{ destruct Hh as [Hh|[Hh1 Hh2]]; [left; exact Hh|]. right. cbn [head_is_call] in Hh1. cbn [head_ok] in Hh2. rewrite K in Hh1, Hh2.
          destruct ks as [|b r]; [discriminate|]. exists b, r. split; [reflexivity|]. right. split; [exact Hh1|].
          rewrite Hh1 in Hh2. cbn [negb orb] in Hh2. apply Bool.andb_true_iff in Hh2. apply Hh2. }
      destruct H as (B1 & B2). split; [|exact B2].
      eapply node_then_below; [apply holds_silent; [exact Hin|apply quiet_refl]|exact B1|].
      intros m c. rewrite (below_chain E false _ _ _ _ _ _ Kn). cbn [n_kids]. tauto.
    + inversion H; subst st'; clear H.
      assert (Hc0 : s_call st = None).
      { destruct Hh as [Hh|[Hh1 Hh2]]; [exact Hh|]. exfalso. cbn [head_is_call] in Hh1. cbn [head_ok] in Hh2. rewrite K in Hh1, Hh2.
        destruct ks as [|b r]; [discriminate|]. rewrite Hh1, He in Hh2. discriminate. }
      split; [|exact Hc0].
      apply nothing_below; [apply holds_silent; [exact Hin|apply quiet_refl]|]. intros m c. rewrite (below_chain E false _ _ _ _ _ _ Kn). intros [? _]; congruence.
  - destruct h.
    + (* hidden call *)
      assert (Hin : silent (Qdead E (s_ret st)) (at_node (Node l ks) (s_call st))).
      { apply not_test_silent; [intros t b|intros (x & Kx)]; unfold n_kind in *; cbn [n_lab] in *; congruence. }
      assert (Hc0 : s_call st = None).
      { destruct Hh as [Hh|[Hh1 Hh2]]; [exact Hh|]. exfalso. cbn [head_ok] in Hh2. rewrite K in Hh2. discriminate. }
      cbn [walk] in H. rewrite K in H.
      apply fold_dead in H; [|exact IH|exact Wk|exact Hne|exact Hla|left; exact Hc0].
      destruct H as (B1 & B2). split; [|exact B2]; rewrite Hc0 in *.
      eapply node_then_below; [apply holds_silent; [exact Hin|apply quiet_refl]|exact B1|].
      intros m c. rewrite (below_hidden E false _ _ _ None _ _ _ (K : n_kind (Node l ks) = _)). cbn [n_kids]. reflexivity.
    + (* call *)
      assert (Hcn : callnode (Node l ks)) by (exists nm; exact K).
      cbn [walk] in H. rewrite K in H.
      destruct (visit_call E (Node l ks) st) as [[st1 w]|] eqn:H1; [|discriminate]. cbn [obind] in H.
      pose proof (call_holds_dead E _ _ _ _ Hne Hcn W H1) as A.
      apply visit_call_spec in H1; [|exact Hcn|exact W]. cbn zeta in H1.
      destruct H1 as ((F1 & F2 & F3 & F4 & F5 & F6 & F7) & Hw & _ & _).
      destruct w.
      2:{ exfalso. destruct (proj1 Hw eq_refl) as ((Hlv & _) & _). apply liveb_iff in Hlv. contradiction. }
      apply fold_dead in H; [|exact IH|exact Wk|congruence|congruence|left; exact F1].
      rewrite F6, F1 in H. destruct H as (B1 & B2). split; [|exact B2].
      eapply node_then_below; [exact A|exact B1|].
      intros m c. rewrite (below_open E false _ _ _ _ _ _ _ (K : n_kind (Node l ks) = _) (dead_open _ _ _ _)). cbn [n_kids]. reflexivity.
  - (* macro *)
    cbn [walk] in H. rewrite K in H.
    destruct (visit_macro_call E nm (l_span l) st) as [[st1 w]|] eqn:H1; [|discriminate]. cbn [obind] in H.
    destruct (macro_holds_dead E (Node l ks) _ _ _ _ _ Hne K H1) as (A & F1 & ->).
    pose proof (h_tests _ _ _ _ _ A) as F3. pose proof (h_last _ _ _ _ _ A) as F4. pose proof (h_ret _ _ _ _ _ A) as F6.
    apply fold_dead in H; [|exact IH|exact Wk|congruence|congruence|left; exact F1].
    rewrite F6, F1 in H. destruct H as (B1 & B2). split; [|exact B2].
    eapply node_then_below; [exact A|exact B1|].
    intros m c. rewrite (below_macro_open E false _ _ _ _ _ _ _ (K : n_kind (Node l ks) = _) (dead_open _ _ _ _)). cbn [n_kids]. reflexivity.
  - (* identifier *)
    assert (Kn : n_kind (Node l ks) = KExpr \/ exists x, n_kind (Node l ks) = KIdent x) by (right; exists nm; exact K).
    assert (Hin : silent (Qdead E (s_ret st)) (at_node (Node l ks) (s_call st))).
    { apply not_test_silent; [intros t b|intros (x & Kx)]; unfold n_kind in *; cbn [n_lab] in *; congruence. }
    assert (Hc0 : s_call st = None).
    { destruct Hh as [Hh|[Hh1 _]]; [exact Hh|]. cbn [head_is_call] in Hh1. rewrite K in Hh1. discriminate. }
    cbn [walk] in H. rewrite K in H. destruct (fw_expr_kids (v_fw E)) eqn:He.
    + apply fold_dead in H; [|exact IH|exact Wk|exact Hne|exact Hla|left; exact Hc0].
      rewrite Hc0 in *. destruct H as (B1 & B2). split; [|exact B2].
      eapply node_then_below; [apply holds_silent; [exact Hin|apply quiet_refl]|exact B1|].
      intros m c. rewrite (below_expr E false _ _ _ _ _ _ Kn). cbn [n_kids]. tauto.
    + inversion H; subst st'; clear H. split; [|exact Hc0].
      apply nothing_below; [apply holds_silent; [exact Hin|apply quiet_refl]|]. intros m c. rewrite (below_expr E false _ _ _ _ _ _ Kn). intros [? _]; congruence.
  - (* test *)
    assert (Hc0 : s_call st = None).
    { destruct Hh as [Hh|[Hh1 _]]; [exact Hh|]. cbn [head_is_call] in Hh1. rewrite K in Hh1. discriminate. }
    assert (Hbel : forall m c, ~ below E false None (s_ret st) (Node l ks) (s_call st) m c).
    { intros m c. apply (below_test E false None (s_ret st) (Node l ks) (s_call st) nm bi). exact K. }
    cbn [walk] in H. rewrite K in H.
    unfold visit_test in H. destruct (v_ign_test E nm) eqn:Hi; cbn [obind] in H.
    + (* ignored *)
      unfold visit_test_post in H. cbn [set_last s_tests] in H. rewrite Hne, Hi in H. cbn [guard obind] in H.
      inversion H; subst st'; clear H. split; [|exact Hc0].
      apply nothing_below; [|exact Hbel]. apply holds_silent; [|repeat split; auto].
      intros m c [-> ->]. cbn [Qdead q_c q_k q_p q_t].
      assert (Ht : forall t, ~ testnode E (Node l ks) t).
      { intros t (b & Kt & Hit). unfold n_kind in Kt; cbn [n_lab] in Kt. rewrite K in Kt. inversion Kt; subst. congruence. }
      repeat split.
      * intros k sp t [H _]. exact (Ht _ H).
      * intros f [[(x & Kx) _]|(t & H & _)]; [unfold n_kind in Kx; cbn [n_lab] in Kx; congruence|exact (Ht _ H)].
      * intros f t [H _]. exact (Ht _ H).
      * exact Ht.
    + cbn [set_tset s_tests set_tests s_last] in H. rewrite Hne, Hla in H. cbn [is_nil is_none guard obind] in H.
      match type of H with context [fold_kids (walk E) ks ?s] => set (st1 := s) in * end.
      destruct (fold_kids (walk E) ks st1) as [st2|] eqn:H2; [|discriminate]. cbn [obind] in H.
      assert (Tt : forall t, testnode E (Node l ks) t <-> t = nm).
      { intros t. unfold testnode, n_kind. cbn [n_lab]. rewrite K. split.
        - intros (b & Hb & _). inversion Hb. reflexivity.
        - intros ->. eauto. }
      assert (Hls : last_statement (Node l ks) = s_last st1).
      { unfold last_statement, n_kind. cbn [n_lab n_kids]. rewrite K. reflexivity. }
      apply fold_live in H2; [|apply Forall_forall; intros k _; apply walk_live_all|exact Wk|discriminate| |left; exact Hc0].
      2:{ intros t [<-|[]]. exact Hi. }
      change (s_call st1) with (s_call st) in H2. rewrite Hc0 in H2.
      change (s_ret st1) with (s_ret st) in H2. rewrite <- Hls in H2.
      destruct H2 as (B1 & B2 & _). change (s_tests st1) with [nm] in B1.
      unfold visit_test_post in H. cbn [set_last s_tests] in H.
      rewrite (h_tests _ _ _ _ _ B1) in H. change (s_tests st1) with [nm] in H. cbn iota in H.
      rewrite text_eqb_refl in H. cbn [guard obind] in H. inversion H; subst st'; clear H.
      split; [|exact B2]. apply nothing_below; [|exact Hbel].
      assert (Hyc : forall k sp, (exists m c, LV E true (last_statement (Node l ks)) (s_ret st) None ks m c /\
                 contributes E true (last_statement (Node l ks)) (s_ret st) m c k sp) <-> yields E true (last_statement (Node l ks)) (s_ret st) ks k sp).
      { intros k sp. symmetry. apply yields_LV. }
      destruct B1. cbn [Qlive q_c q_k q_p q_t] in *.
      constructor; cbn [set_tests set_last s_tests s_last s_before s_ret s_tset s_maps s_pend Qdead q_c q_k q_p q_t n_kids]; try congruence; auto.
      * intros t. rewrite h_tset. unfold st1. cbn [set_tests set_last set_tset s_tset]. rewrite set_add_in. split.
        { intros [[->|?]|(m & c & _ & [])]; [|auto]. right. exists (Node l ks), (s_call st). split; [split; reflexivity|]. apply Tt. reflexivity. }
        { intros [?|(m & c & [-> ->] & Ht)]; [auto|]. apply Tt in Ht. auto. }
      * intros k sp t. rewrite h_lists. split.
        { intros [?|(m & c & HV & [<-|[]] & Hc)]; [auto|]. right. exists (Node l ks), (s_call st).
          split; [split; reflexivity|]. split; [apply Tt; reflexivity|]. apply Hyc. eauto. }
        { intros [?|(m & c & [-> ->] & Ht & Hy)]; [auto|]. right. cbn [n_kids] in Hy. apply Hyc in Hy.
          destruct Hy as (m & c & HV & Hc). exists m, c. split; [exact HV|]. split; [left; apply Tt in Ht; auto|exact Hc]. }
      * intros g Hg. apply h_keys_new in Hg. destruct Hg as [Hg|(m & c & HV & Hk)]; [left; exact Hg|].
        right. exists (Node l ks), (s_call st). split; [split; reflexivity|]. right. exists nm. split; [apply Tt; reflexivity|].
        apply yields_call_LV. exists m, c. auto.
      * intros m c f [-> ->] [[(x & Kx) _]|(t & _ & Hy)]; [unfold n_kind in Kx; cbn [n_lab] in Kx; congruence|].
        cbn [n_kids] in Hy. apply yields_call_LV in Hy. destruct Hy as (m & c & HV & Hk). eapply h_keys_all; eauto.
      * intros g t Hg. apply h_p_new in Hg. destruct Hg as [Hg|(m & c & f & HV & ([<-|[]] & Hk) & Hs)]; [left; exact Hg|].
        right. exists (Node l ks), (s_call st), f. split; [split; reflexivity|]. split; [|exact Hs]. split; [apply Tt; reflexivity|].
        apply yields_call_LV. exists m, c. auto.
      * intros m c f t [-> ->] (Ht & Hy). apply Tt in Ht. subst t. cbn [n_kids] in Hy. apply yields_call_LV in Hy.
        destruct Hy as (m & c & HV & Hk). eapply h_p_all; [exact HV|]. split; [left; reflexivity|exact Hk].
  - (* expression *)
    assert (Kn : n_kind (Node l ks) = KExpr \/ exists x, n_kind (Node l ks) = KIdent x) by (left; exact K).
    assert (Hin : silent (Qdead E (s_ret st)) (at_node (Node l ks) (s_call st))).
    { apply not_test_silent; [intros t b|intros (x & Kx)]; unfold n_kind in *; cbn [n_lab] in *; congruence. }
    assert (Hc0 : s_call st = None).
    { destruct Hh as [Hh|[Hh1 _]]; [exact Hh|]. cbn [head_is_call] in Hh1. rewrite K in Hh1. discriminate. }
    cbn [walk] in H. rewrite K in H. destruct (fw_expr_kids (v_fw E)) eqn:He.
    + apply fold_dead in H; [|exact IH|exact Wk|exact Hne|exact Hla|left; exact Hc0].
      rewrite Hc0 in *. destruct H as (B1 & B2). split; [|exact B2].
      eapply node_then_below; [apply holds_silent; [exact Hin|apply quiet_refl]|exact B1|].
      intros m c. rewrite (below_expr E false _ _ _ _ _ _ Kn). cbn [n_kids]. tauto.
    + inversion H; subst st'; clear H. split; [|exact Hc0].
      apply nothing_below; [apply holds_silent; [exact Hin|apply quiet_refl]|]. intros m c. rewrite (below_expr E false _ _ _ _ _ _ Kn). intros [? _]; congruence.
  - (* group *)
    assert (Hin : silent (Qdead E (s_ret st)) (at_node (Node l ks) (s_call st))).
    { apply not_test_silent; [intros t b|intros (x & Kx)]; unfold n_kind in *; cbn [n_lab] in *; congruence. }
    assert (Hc0 : s_call st = None).
    { destruct Hh as [Hh|[Hh1 _]]; [exact Hh|]. cbn [head_is_call] in Hh1. rewrite K in Hh1. discriminate. }
    cbn [walk] in H. rewrite K in H.
    apply fold_dead in H; [|exact IH|exact Wk|exact Hne|exact Hla|left; exact Hc0].
    rewrite Hc0 in *. destruct H as (B1 & B2). split; [|exact B2].
    eapply node_then_below; [apply holds_silent; [exact Hin|apply quiet_refl]|exact B1|].
    intros m c. rewrite (below_group E false _ _ _ _ _ _ (K : n_kind (Node l ks) = _)). cbn [n_kids]. reflexivity.
Qed.
